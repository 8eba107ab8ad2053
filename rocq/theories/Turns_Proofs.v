From Coq Require Import Lia.
From Verif Require Import Base Turns_Model Turns_Spec.
Open Scope nat_scope.

Lemma nodup_parts : forall A (a b : list A), NoDup (a ++ b) -> NoDup a /\ NoDup b /\ forall x, In x a -> In x b -> False.
Proof.
  induction a as [|x a IH]; intros b H; cbn [app] in H; [split; [constructor|]; split; [exact H|intros y []]|].
  apply NoDup_cons_iff in H. destruct H as [H1 H2]. destruct (IH b H2) as (A1 & A2 & A3). rewrite in_app_iff in H1. split; [|split].
  - constructor; [intros Hi; apply H1; now left|exact A1].
  - exact A2.
  - intros y [<-|Hy] Hb; [apply H1; now right|exact (A3 y Hy Hb)].
Qed.
Lemma split_cases : forall A (a b l1 l2 : list A) x, a ++ b = l1 ++ x :: l2 ->
  (exists r, a = l1 ++ x :: r /\ l2 = r ++ b) \/ (exists r, l1 = a ++ r /\ b = r ++ x :: l2).
Proof.
  induction a as [|y a IH]; intros b l1 l2 x E; cbn [app] in E; [right; exists l1; auto|].
  destruct l1 as [|z l1]; cbn [app] in E.
  - injection E as -> <-. left. exists a. auto.
  - injection E as -> E. destruct (IH _ _ _ _ E) as [(r & -> & ->)|(r & -> & ->)]; [left|right]; exists r; auto.
Qed.

Arguments nodup_parts {A}. Arguments split_cases {A} _ _ _ _ {x}.
Set Implicit Arguments.

Section Facts.
Variable Id : Type.
Implicit Types (g t d : tasker Id) (tr a b : list (event Id)) (i j : Id).

Lemma within_ids : forall g t, within g t -> In (tid t) (ids g).
Proof.
  intros g t H. induction H as [g|g d t Hd H IH]; destruct g as [i r ds]; cbn [ids tid tdeps] in *; [now left|].
  right. apply in_flat_map. exists d. auto.
Qed.
Lemma within_ids' : forall g t x, within g t -> In x (ids t) -> In x (ids g).
Proof.
  intros g t x H. induction H as [g|g d t Hd H IH]; intros Hx; [exact Hx|]. destruct g as [i r ds]; cbn [ids tid tdeps] in *.
  right. apply in_flat_map. exists d. auto.
Qed.
Lemma ids_eq : forall g, ids g = tid g :: flat_map ids (tdeps g).
Proof. now destruct g. Qed.

(** *** Order *)
Lemma precedes_none_i : forall tr i j, unmentioned i tr -> precedes tr i j.
Proof. intros tr i j H l1 e l2 -> _ x Hx. apply H. rewrite in_app_iff. right. now right. Qed.
Lemma precedes_none_j : forall tr i j, unmentioned j tr -> precedes tr i j.
Proof. intros tr i j H l1 e l2 -> Hj. exfalso. apply (H e); [apply in_elt|exact Hj]. Qed.
Lemma precedes_app : forall a b i j, precedes a i j -> precedes b i j -> unmentioned i b \/ unmentioned j a -> precedes (a ++ b) i j.
Proof.
  intros a b i j Ha Hb H l1 e l2 E Hj. destruct (split_cases _ _ _ _ E) as [(r & Ea & ->)|(r & -> & Eb)].
  - intros x Hx. rewrite in_app_iff in Hx. destruct Hx as [Hx|Hx]; [exact (Ha l1 e r Ea Hj x Hx)|].
    destruct H as [H|H]; [now apply H|]. exfalso. apply (H e); [rewrite Ea; apply in_elt|exact Hj].
  - exact (Hb r e l2 Eb Hj).
Qed.

(** [ready tr P j]: before each batch of [j], [P] holds of what has happened. *)
Definition ready tr (P : list (event Id) -> Prop) (j : Id) : Prop := forall l1 l2, tr = l1 ++ Batched j :: l2 -> P l1.
Definition closed_before d l1 : Prop := In (Closed (tid d) true) l1 /\ (treduces d = true -> In (Reduced (tid d)) l1).
Lemma closed_before_app : forall d a b, closed_before d a \/ closed_before d b -> closed_before d (a ++ b).
Proof. intros d a b [[A B]|[A B]]; split; intros; rewrite in_app_iff; auto. Qed.
Lemma ready_app : forall a b d j, ready a (closed_before d) j -> ready b (closed_before d) j \/ closed_before d a -> ready (a ++ b) (closed_before d) j.
Proof.
  intros a b d j Ha H l1 l2 E. destruct (split_cases _ _ _ _ E) as [(r & Ea & ->)|(r & -> & Eb)]; [exact (Ha l1 r Ea)|].
  apply closed_before_app. destruct H as [H|H]; [right; exact (H r l2 Eb)|now left].
Qed.
Lemma ready_none : forall tr P j, unmentioned j tr -> ready tr P j.
Proof. intros tr P j H l1 l2 ->. exfalso. apply (H (Batched j)); [apply in_elt|reflexivity]. Qed.

(** *** Without streaming *)
Definition reduction d : list (event Id) := if treduces d then [Reduced (tid d)] else [].
Inductive full : tasker Id -> list (event Id) -> Prop :=
| full_i : forall i r ds tr n, fulls ds tr -> full (Tasker i r ds) (tr ++ repeat (Batched i) (S n) ++ [Closed i true])
with fulls : list (tasker Id) -> list (event Id) -> Prop :=
| fulls_nil : fulls [] []
| fulls_cons : forall d ds tr tr', full d tr -> fulls ds tr' -> fulls (d :: ds) ((tr ++ reduction d) ++ tr').
Scheme full_min := Minimality for full Sort Prop with fulls_min := Minimality for fulls Sort Prop.
Combined Scheme full_fulls from full_min, fulls_min.
Inductive fails : tasker Id -> list (event Id) -> Prop :=
| fails_dep : forall i r ds1 d ds2 tr1 tr2, fulls ds1 tr1 -> fails d tr2 -> fails (Tasker i r (ds1 ++ d :: ds2)) (tr1 ++ tr2 ++ [Closed i false])
| fails_reduce : forall i r ds1 d ds2 tr1 tr2, fulls ds1 tr1 -> full d tr2 -> treduces d = true ->
                 fails (Tasker i r (ds1 ++ d :: ds2)) (tr1 ++ (tr2 ++ [Reduced (tid d)]) ++ [Closed i false])
| fails_batch : forall i r ds tr n, fulls ds tr -> fails (Tasker i r ds) (tr ++ repeat (Batched i) (S n) ++ [Closed i false]).

Definition within_list (ds : list (tasker Id)) t : Prop := exists d0, In d0 ds /\ within d0 t.
Definition own (i : Id) tr : Prop := forall e, In e tr -> about e = i.
Lemma own_repeat : forall i n (b : bool), own i (repeat (Batched i) n ++ [Closed i b]).
Proof. intros i n b e H. rewrite in_app_iff in H. destruct H as [H|[<-|[]]]; [|reflexivity]. apply repeat_spec in H. now subst. Qed.
Lemma own_reduction : forall d, own (tid d) (reduction d).
Proof. intros d e H. unfold reduction in H. destruct (treduces d); [destruct H as [<-|[]]; reflexivity|destruct H]. Qed.
Lemma own_unmentioned : forall i j tr, own i tr -> j <> i -> unmentioned j tr.
Proof. intros i j tr H Hn e He. rewrite (H e He). congruence. Qed.

(** The events of a run are about the taskers of the tree. *)
Lemma full_ids : (forall g tr, full g tr -> forall e, In e tr -> In (about e) (ids g)) /\
  (forall ds tr, fulls ds tr -> forall e, In e tr -> In (about e) (flat_map ids ds)).
Proof.
  apply full_fulls.
  - intros i r ds tr n H IH e He. rewrite in_app_iff in He. cbn [ids]. destruct He as [He|He]; [right; now apply IH|]. left. symmetry. exact (own_repeat i _ _ e He).
  - intros e [].
  - intros d ds tr tr' H IH H' IH' e He. rewrite !in_app_iff in He. cbn [flat_map]. rewrite in_app_iff. destruct He as [[He|He]|He]; auto.
    left. rewrite (own_reduction d e He). rewrite ids_eq. now left.
Qed.
Lemma fails_ids : forall g tr, fails g tr -> forall e, In e tr -> In (about e) (ids g).
Proof.
  destruct full_ids as [Hf Hfs].
  intros g tr H. induction H as [i r ds1 d ds2 tr1 tr2 H1 H2 IH|i r ds1 d ds2 tr1 tr2 H1 H2 Hr|i r ds tr n H]; intros e He; cbn [ids].
  - rewrite flat_map_app. cbn [flat_map]. apply in_app_iff in He. destruct He as [He|He]; [right; apply in_app_iff; left; eauto|].
    apply in_app_iff in He. destruct He as [He|[<-|[]]]; [right; apply in_app_iff; right; apply in_app_iff; left; auto|now left].
  - rewrite flat_map_app. cbn [flat_map]. apply in_app_iff in He. destruct He as [He|He]; [right; apply in_app_iff; left; eauto|].
    apply in_app_iff in He. destruct He as [He|[<-|[]]]; [|now left]. right. apply in_app_iff. right. apply in_app_iff. left.
    apply in_app_iff in He. destruct He as [He|[<-|[]]]; [eauto|]. cbn [about]. rewrite ids_eq. now left.
  - apply in_app_iff in He. destruct He as [He|He]; [right; eauto|left; symmetry; exact (own_repeat i _ _ e He)].
Qed.
Lemma full_unmentioned : forall g tr i, full g tr -> ~ In i (ids g) -> unmentioned i tr.
Proof. intros g tr i H Hn e He Ei. apply Hn. rewrite <- Ei. exact (proj1 full_ids g tr H e He). Qed.
Lemma fulls_unmentioned : forall ds tr i, fulls ds tr -> ~ In i (flat_map ids ds) -> unmentioned i tr.
Proof. intros ds tr i H Hn e He Ei. apply Hn. rewrite <- Ei. exact (proj2 full_ids ds tr H e He). Qed.
Lemma fails_unmentioned : forall g tr i, fails g tr -> ~ In i (ids g) -> unmentioned i tr.
Proof. intros g tr i H Hn e He Ei. apply Hn. rewrite <- Ei. exact (fails_ids H e He). Qed.
Lemma unmentioned_app : forall i a b, unmentioned i a -> unmentioned i b -> unmentioned i (a ++ b).
Proof. intros i a b Ha Hb e He. rewrite in_app_iff in He. destruct He; auto. Qed.

Lemma within_inv : forall g t, within g t -> t = g \/ within_list (tdeps g) t.
Proof. intros g t H. destruct H as [g|g d t Hd H]; [now left|right; exists d; auto]. Qed.
Lemma within_list_ids : forall ds t, within_list ds t -> In (tid t) (flat_map ids ds).
Proof. intros ds t (d & Hd & H). apply in_flat_map. exists d. split; [exact Hd|now apply within_ids]. Qed.
Lemma subquery_ids : forall t d, subquery t d -> In (tid d) (flat_map ids (tdeps t)).
Proof. intros t d H. now apply within_list_ids. Qed.
Lemma within_subquery_ids : forall g t d, within g t -> subquery t d -> In (tid d) (ids g).
Proof. intros g t d H Hs. apply (@within_ids' _ _ _ H). rewrite ids_eq. right. now apply subquery_ids. Qed.
Lemma within_list_subquery_ids : forall ds t d, within_list ds t -> subquery t d -> In (tid d) (flat_map ids ds).
Proof. intros ds t d (d0 & Hd & H) Hs. apply in_flat_map. exists d0. split; [exact Hd|exact (within_subquery_ids H Hs)]. Qed.

(** Everything below a finished list of taskers is closed, and reduced. *)
Lemma full_closed : (forall g tr, full g tr -> In (Closed (tid g) true) tr /\ forall t, within_list (tdeps g) t -> closed_before t tr) /\
  (forall ds tr, fulls ds tr -> forall t, within_list ds t -> closed_before t tr).
Proof.
  apply full_fulls.
  - intros i r ds tr n H IH. split; [rewrite !in_app_iff; right; right; now left|]. intros t Ht. apply closed_before_app. left. now apply IH.
  - intros t (d & [] & _).
  - intros d ds tr tr' H [IH1 IH2] H' IH' t (d0 & [<-|Hd] & Ht); apply closed_before_app; [left|right; apply IH'; exists d0; auto].
    destruct (within_inv Ht) as [->|Hl].
    + split; [rewrite in_app_iff; now left|]. intros Hr. rewrite in_app_iff. right. unfold reduction. rewrite Hr. now left.
    + apply closed_before_app. left. now apply IH2.
Qed.

(** Order in a complete run. *)
Lemma full_order : (forall g tr, full g tr -> NoDup (ids g) -> forall t d, within g t -> subquery t d -> precedes tr (tid d) (tid t) /\ ready tr (closed_before d) (tid t)) /\
  (forall ds tr, fulls ds tr -> NoDup (flat_map ids ds) -> forall t d, within_list ds t -> subquery t d -> precedes tr (tid d) (tid t) /\ ready tr (closed_before d) (tid t)).
Proof.
  apply full_fulls.
  - intros i r ds tr n H IH Nd t d Ht Hs. cbn [ids] in Nd. apply NoDup_cons_iff in Nd. destruct Nd as [N1 N2].
    destruct (within_inv Ht) as [->|Hl]; cbn [tdeps tid] in *.
    + assert (Hd : tid d <> i) by (intros E; apply N1; rewrite <- E; exact (subquery_ids Hs)).
      assert (Hu := fulls_unmentioned H N1). split.
      * apply precedes_app; [now apply precedes_none_j| |left; exact (own_unmentioned (own_repeat i _ _) Hd)].
        apply precedes_none_i. exact (own_unmentioned (own_repeat i _ _) Hd).
      * apply ready_app; [now apply ready_none|right]. exact (proj2 full_closed ds tr H d Hs).
    + destruct (IH N2 t d Hl Hs) as [A B].
      assert (Hd : tid d <> i) by (intros E; apply N1; rewrite <- E; exact (within_list_subquery_ids Hl Hs)).
      assert (Hti : tid t <> i) by (intros E; apply N1; rewrite <- E; exact (within_list_ids Hl)). split.
      * apply precedes_app; [exact A| |left; exact (own_unmentioned (own_repeat i _ _) Hd)]. apply precedes_none_i. exact (own_unmentioned (own_repeat i _ _) Hd).
      * apply ready_app; [exact B|left]. apply ready_none. exact (own_unmentioned (own_repeat i _ _) Hti).
  - intros _ t d (d0 & [] & _).
  - intros x ds tr tr' H IH H' IH' Nd t d (d0 & Hd0 & Ht) Hs. cbn [flat_map] in Nd. destruct (nodup_parts _ _ Nd) as (N1 & N2 & N3). destruct Hd0 as [<-|Hd0].
    + destruct (IH N1 t d Ht Hs) as [A B]. assert (I1 := within_subquery_ids Ht Hs). assert (I2 := within_ids Ht).
      assert (U1 : unmentioned (tid d) tr') by (apply (fulls_unmentioned H'); intros Hi; exact (N3 _ I1 Hi)).
      assert (U2 : unmentioned (tid t) tr') by (apply (fulls_unmentioned H'); intros Hi; exact (N3 _ I2 Hi)).
      assert (Hdx : tid d <> tid x).
      { rewrite ids_eq in N1. apply NoDup_cons_iff in N1. intros E. apply (proj1 N1). rewrite <- E. destruct (within_inv Ht) as [->|Hl]; [now apply subquery_ids|].
        exact (within_list_subquery_ids Hl Hs). }
      assert (U3 : unmentioned (tid d) (reduction x)) by exact (own_unmentioned (own_reduction x) Hdx). split.
      * apply precedes_app; [apply precedes_app; [exact A|now apply precedes_none_i|now left]|now apply precedes_none_i|now left].
      * apply ready_app; [apply ready_app; [exact B|]|left; now apply ready_none]. left. intros l1 l2 E. unfold reduction in E.
        destruct (treduces x); [|destruct l1; discriminate]. destruct l1 as [|? l1]; [discriminate|destruct l1; discriminate].
    + assert (Hl : within_list ds t) by (exists d0; auto). destruct (IH' N2 t d Hl Hs) as [A B].
      assert (I1 := within_list_subquery_ids Hl Hs). assert (I2 := within_list_ids Hl).
      assert (F : forall i, In i (flat_map ids ds) -> unmentioned i (tr ++ reduction x)).
      { intros i Hi. apply unmentioned_app; [apply (full_unmentioned H); intros Hx; exact (N3 _ Hx Hi)|].
        apply (own_unmentioned (own_reduction x)). intros E. apply (N3 i); [rewrite E, ids_eq; now left|exact Hi]. }
      split.
      * apply precedes_app; [apply precedes_none_i; now apply F|exact A|right; now apply F].
      * apply ready_app; [apply ready_none; now apply F|now left].
Qed.

Lemma split_ids : forall ds1 d ds2, NoDup (flat_map ids (ds1 ++ d :: ds2)) ->
  NoDup (flat_map ids ds1) /\ NoDup (ids d) /\ (forall x, In x (flat_map ids ds1) -> In x (ids d) -> False) /\
  (forall x, In x (flat_map ids ds2) -> In x (ids d) -> False) /\ (forall x, In x (flat_map ids ds1) -> In x (flat_map ids ds2) -> False).
Proof.
  intros ds1 d ds2 H. rewrite flat_map_app in H. cbn [flat_map] in H. destruct (nodup_parts _ _ H) as (A & B & C). destruct (nodup_parts _ _ B) as (D & E & F).
  split; [exact A|]. split; [exact D|]. split; [intros x H1 H2; apply (C x H1); rewrite in_app_iff; now left|]. split; [intros x H1 H2; exact (F x H2 H1)|].
  intros x H1 H2. apply (C x H1). rewrite in_app_iff. now right.
Qed.

(** One tasker after finished ones: where the events of each lie. *)
Lemma fails_parts : forall ds1 d ds2 tr1 tr2 i,
  NoDup (i :: flat_map ids (ds1 ++ d :: ds2)) -> fulls ds1 tr1 -> (forall e, In e tr2 -> In (about e) (ids d)) ->
  (forall t s, within d t -> subquery t s -> precedes tr2 (tid s) (tid t) /\ ready tr2 (closed_before s) (tid t)) ->
  forall t s, within (Tasker i false (ds1 ++ d :: ds2)) t \/ within (Tasker i true (ds1 ++ d :: ds2)) t -> subquery t s ->
  precedes (tr1 ++ tr2 ++ [Closed i false]) (tid s) (tid t) /\ ready (tr1 ++ tr2 ++ [Closed i false]) (closed_before s) (tid t).
Proof.
  intros ds1 d ds2 tr1 tr2 i Nd H1 H2 Ho t s Ht Hs. apply NoDup_cons_iff in Nd. destruct Nd as [N1 N2].
  destruct (split_ids _ _ _ N2) as (A & B & C & D & E).
  assert (U1 : forall j, ~ In j (flat_map ids ds1) -> unmentioned j tr1) by (intros j; now apply fulls_unmentioned).
  assert (U2 : forall j, ~ In j (ids d) -> unmentioned j tr2) by (intros j Hj e He Ee; apply Hj; rewrite <- Ee; now apply H2).
  assert (Ui : forall j, j <> i -> unmentioned j [Closed i false]) by (intros j Hj e [<-|[]] Ee; cbn in Ee; congruence).
  assert (Hni : ~ In i (flat_map ids ds1) /\ ~ In i (ids d)).
  { rewrite flat_map_app in N1. cbn [flat_map] in N1. rewrite !in_app_iff in N1. tauto. }
  assert (Hc : (t = Tasker i false (ds1 ++ d :: ds2) \/ t = Tasker i true (ds1 ++ d :: ds2)) \/ within_list (ds1 ++ d :: ds2) t).
  { destruct Ht as [Ht|Ht]; destruct (within_inv Ht) as [->|Hl]; auto. }
  clear Ht. destruct Hc as [Hc|Hl].
  - assert (Eti : tid t = i) by (destruct Hc as [->| ->]; reflexivity).
    assert (Hsi : tid s <> i). { intros Es. apply N1. rewrite <- Es. assert (Hs' := subquery_ids Hs). destruct Hc as [->| ->]; exact Hs'. }
    rewrite Eti. split.
    + apply precedes_app; [apply precedes_none_j; now apply U1| |right; now apply U1].
      apply precedes_app; [apply precedes_none_j; now apply U2|apply precedes_none_i; now apply Ui|right; now apply U2].
    + apply ready_app; [apply ready_none; now apply U1|left]. apply ready_app; [apply ready_none; now apply U2|left].
      intros l1 l2 El. destruct l1 as [|? l1]; [discriminate|destruct l1; discriminate].
  - assert (Hti : tid t <> i) by (intros Es; apply N1; rewrite <- Es; exact (within_list_ids Hl)).
    assert (Hsi : tid s <> i) by (intros Es; apply N1; rewrite <- Es; exact (within_list_subquery_ids Hl Hs)).
    destruct Hl as (d0 & Hd0 & Ht). apply in_elt_inv in Hd0. rewrite in_app_iff in Hd0.
    assert (Hcase : within_list ds1 t \/ within d t \/ within_list ds2 t).
    { destruct Hd0 as [<-|[Hd0|Hd0]]; [right; now left|left; exists d0; auto|right; right; exists d0; auto]. }
    clear d0 Hd0 Ht. destruct Hcase as [Hl|[Hl|Hl]].
    + destruct (proj2 full_order ds1 tr1 H1 A t s Hl Hs) as [P R]. assert (I1 := within_list_subquery_ids Hl Hs). assert (I2 := within_list_ids Hl).
      assert (Us : unmentioned (tid s) (tr2 ++ [Closed i false])).
      { apply unmentioned_app; [apply U2; intros Hi; exact (C _ I1 Hi)|now apply Ui]. }
      assert (Ut : unmentioned (tid t) (tr2 ++ [Closed i false])).
      { apply unmentioned_app; [apply U2; intros Hi; exact (C _ I2 Hi)|now apply Ui]. }
      split; [apply precedes_app; [exact P|now apply precedes_none_i|now left]|]. apply ready_app; [exact R|left; now apply ready_none].
    + destruct (Ho t s Hl Hs) as [P R]. assert (I1 := within_subquery_ids Hl Hs). assert (I2 := within_ids Hl).
      assert (Us : unmentioned (tid s) tr1) by (apply U1; intros Hi; exact (C _ Hi I1)).
      assert (Ut : unmentioned (tid t) tr1) by (apply U1; intros Hi; exact (C _ Hi I2)).
      split.
      * apply precedes_app; [now apply precedes_none_i| |now right]. apply precedes_app; [exact P|apply precedes_none_i; now apply Ui|left; now apply Ui].
      * apply ready_app; [now apply ready_none|left]. apply ready_app; [exact R|left; apply ready_none; now apply Ui].
    + assert (I1 := within_list_subquery_ids Hl Hs). assert (I2 := within_list_ids Hl).
      assert (Us : unmentioned (tid s) (tr1 ++ tr2 ++ [Closed i false])).
      { apply unmentioned_app; [apply U1; intros Hi; exact (E _ Hi I1)|]. apply unmentioned_app; [apply U2; intros Hi; exact (D _ I1 Hi)|now apply Ui]. }
      assert (Ut : unmentioned (tid t) (tr1 ++ tr2 ++ [Closed i false])).
      { apply unmentioned_app; [apply U1; intros Hi; exact (E _ Hi I2)|]. apply unmentioned_app; [apply U2; intros Hi; exact (D _ I2 Hi)|now apply Ui]. }
      split; [now apply precedes_none_i|now apply ready_none].
Qed.

Lemma fails_order : forall g tr, fails g tr -> NoDup (ids g) -> forall t d, within g t -> subquery t d -> precedes tr (tid d) (tid t) /\ ready tr (closed_before d) (tid t).
Proof.
  intros g tr H. induction H as [i r ds1 d ds2 tr1 tr2 H1 H2 IH|i r ds1 d ds2 tr1 tr2 H1 H2 Hr|i r ds tr n H]; intros Nd t s Ht Hs.
  - cbn [ids] in Nd. assert (Nd' := proj2 (proj1 (NoDup_cons_iff _ _) Nd)). destruct (split_ids _ _ _ Nd') as (A & B & _).
    apply (@fails_parts ds1 d ds2); [exact Nd|exact H1|exact (fails_ids H2)|exact (IH B)|destruct r; auto|exact Hs].
  - cbn [ids] in Nd. assert (Nd' := proj2 (proj1 (NoDup_cons_iff _ _) Nd)). destruct (split_ids _ _ _ Nd') as (A & B & _).
    apply (@fails_parts ds1 d ds2); [exact Nd|exact H1| | |destruct r; auto|exact Hs].
    + intros e He. rewrite in_app_iff in He. destruct He as [He|[<-|[]]]; [exact (proj1 full_ids _ _ H2 e He)|]. cbn [about]. rewrite ids_eq. now left.
    + assert (Hfs : fulls [d] ((tr2 ++ [Reduced (tid d)]) ++ [])).
      { replace [Reduced (tid d)] with (reduction d) by (unfold reduction; now rewrite Hr). constructor; [exact H2|constructor]. }
      rewrite app_nil_r in Hfs. intros t0 s0 Ht0 Hs0. apply (proj2 full_order _ _ Hfs); [cbn [flat_map]; now rewrite app_nil_r| |exact Hs0]. exists d. split; [now left|exact Ht0].
  - (* the events are those of a complete run, the last one apart *)
    cbn [ids] in Nd. apply NoDup_cons_iff in Nd. destruct Nd as [N1 N2].
    destruct (within_inv Ht) as [->|Hl]; cbn [tdeps tid] in *.
    + assert (Hd : tid s <> i) by (intros E; apply N1; rewrite <- E; exact (subquery_ids Hs)).
      assert (Hu := fulls_unmentioned H N1). split.
      * apply precedes_app; [now apply precedes_none_j| |left; exact (own_unmentioned (own_repeat i _ _) Hd)].
        apply precedes_none_i. exact (own_unmentioned (own_repeat i _ _) Hd).
      * apply ready_app; [now apply ready_none|right]. exact (proj2 full_closed ds tr H s Hs).
    + destruct (proj2 full_order ds tr H N2 t s Hl Hs) as [A B].
      assert (Hd : tid s <> i) by (intros E; apply N1; rewrite <- E; exact (within_list_subquery_ids Hl Hs)).
      assert (Hti : tid t <> i) by (intros E; apply N1; rewrite <- E; exact (within_list_ids Hl)). split.
      * apply precedes_app; [exact A| |left; exact (own_unmentioned (own_repeat i _ _) Hd)]. apply precedes_none_i. exact (own_unmentioned (own_repeat i _ _) Hd).
      * apply ready_app; [exact B|left]. apply ready_none. exact (own_unmentioned (own_repeat i _ _) Hti).
Qed.

(** *** How often *)
Variable eqb : Id -> Id -> bool.
Hypothesis Heqb : forall i j, eqb i j = true <-> i = j.
Lemma eqb_refl : forall i, eqb i i = true. Proof. intros i. now apply Heqb. Qed.
Lemma eqb_ne : forall i j, i <> j -> eqb i j = false.
Proof. intros i j H. destruct (eqb i j) eqn:E; [apply Heqb in E; contradiction|reflexivity]. Qed.
Lemma count_app : forall p (a b : list (event Id)), count p (a ++ b) = count p a + count p b.
Proof. intros p a b. unfold count. rewrite filter_app, app_length. reflexivity. Qed.
Lemma count_none : forall p (tr : list (event Id)), (forall e, In e tr -> p e = false) -> count p tr = 0.
Proof.
  intros p tr H. unfold count. induction tr as [|e tr IH]; [reflexivity|]. cbn [filter]. rewrite (H e (or_introl eq_refl)). apply IH. intros x Hx. apply H. now right.
Qed.
Lemma closings_none : forall i tr, unmentioned i tr -> closings eqb i tr = 0.
Proof. intros i tr H. apply count_none. intros e He. specialize (H e He). destruct e as [j|j|j b]; try reflexivity. cbn in H. apply eqb_ne. congruence. Qed.
Lemma reductions_none : forall i tr, unmentioned i tr -> reductions eqb i tr = 0.
Proof. intros i tr H. apply count_none. intros e He. specialize (H e He). destruct e as [j|j|j b]; try reflexivity. cbn in H. apply eqb_ne. congruence. Qed.
Lemma batches_none : forall i tr, unmentioned i tr -> batches eqb i tr = 0.
Proof. intros i tr H. apply count_none. intros e He. specialize (H e He). destruct e as [j|j|j b]; try reflexivity. cbn in H. apply eqb_ne. congruence. Qed.
Lemma closings_app : forall i a b, closings eqb i (a ++ b) = closings eqb i a + closings eqb i b. Proof. intros. apply count_app. Qed.
Lemma reductions_app : forall i a b, reductions eqb i (a ++ b) = reductions eqb i a + reductions eqb i b. Proof. intros. apply count_app. Qed.
Lemma batches_app : forall i a b, batches eqb i (a ++ b) = batches eqb i a + batches eqb i b. Proof. intros. apply count_app. Qed.
Lemma closings_repeat : forall i j n, closings eqb i (repeat (Batched j) n) = 0.
Proof. intros i j n. apply count_none. intros e He. apply repeat_spec in He. now subst. Qed.
Lemma reductions_repeat : forall i j n, reductions eqb i (repeat (Batched j) n) = 0.
Proof. intros i j n. apply count_none. intros e He. apply repeat_spec in He. now subst. Qed.
Lemma closings_self : forall i (b : bool), closings eqb i [Closed i b] = 1.
Proof. intros i b. unfold closings, count. cbn [filter]. now rewrite eqb_refl. Qed.
Lemma closings_reduction : forall i d, closings eqb i (reduction d) = 0.
Proof. intros i d. unfold reduction. destruct (treduces d); reflexivity. Qed.
Lemma reductions_reduction : forall d, reductions eqb (tid d) (reduction d) = if treduces d then 1 else 0.
Proof. intros d. unfold reduction. destruct (treduces d); [|reflexivity]. unfold reductions, count. cbn [filter]. now rewrite eqb_refl. Qed.

Lemma full_counts : (forall g tr, full g tr -> NoDup (ids g) -> closings eqb (tid g) tr = 1 /\ reductions eqb (tid g) tr = 0 /\
    forall t, within_list (tdeps g) t -> closings eqb (tid t) tr = 1 /\ reductions eqb (tid t) tr = if treduces t then 1 else 0) /\
  (forall ds tr, fulls ds tr -> NoDup (flat_map ids ds) -> forall t, within_list ds t -> closings eqb (tid t) tr = 1 /\ reductions eqb (tid t) tr = if treduces t then 1 else 0).
Proof.
  apply full_fulls.
  - intros i r ds tr n H IH Nd. cbn [ids tid tdeps] in *. apply NoDup_cons_iff in Nd. destruct Nd as [N1 N2]. assert (Hu := fulls_unmentioned H N1).
    rewrite !closings_app, !reductions_app, closings_repeat, reductions_repeat, (closings_none Hu), (reductions_none Hu), closings_self.
    split; [reflexivity|]. split; [reflexivity|]. intros t Ht. destruct (IH N2 t Ht) as [A B].
    assert (Hti : tid t <> i) by (intros E; apply N1; rewrite <- E; exact (within_list_ids Ht)).
    assert (Hu' := own_unmentioned (own_repeat i (S n) true) Hti).
    rewrite closings_app, reductions_app, A, B, (closings_none Hu'), (reductions_none Hu'). split; lia.
  - intros _ t (d & [] & _).
  - intros x ds tr tr' H IH H' IH' Nd t (d0 & Hd0 & Ht). cbn [flat_map] in Nd. destruct (nodup_parts _ _ Nd) as (N1 & N2 & N3). destruct (IH N1) as (A & B & C).
    rewrite !closings_app, !reductions_app, closings_reduction. destruct Hd0 as [<-|Hd0].
    + assert (U : unmentioned (tid t) tr') by (apply (fulls_unmentioned H'); intros Hi; exact (N3 _ (within_ids Ht) Hi)).
      rewrite (closings_none U), (reductions_none U). destruct (within_inv Ht) as [->|Hl].
      * rewrite A, B, reductions_reduction. split; destruct (treduces x); lia.
      * destruct (C t Hl) as [D E]. assert (Htx : tid t <> tid x).
        { intros Es. rewrite ids_eq in N1. apply NoDup_cons_iff in N1. apply (proj1 N1). rewrite <- Es. exact (within_list_ids Hl). }
        rewrite D, E, (reductions_none (own_unmentioned (own_reduction x) Htx)). split; lia.
    + assert (Hl : within_list ds t) by (exists d0; auto). destruct (IH' N2 t Hl) as [D E]. assert (I2 := within_list_ids Hl).
      assert (U : unmentioned (tid t) tr) by (apply (full_unmentioned H); intros Hi; exact (N3 _ Hi I2)).
      assert (Htx : tid t <> tid x) by (intros Es; apply (N3 (tid t)); [rewrite Es, ids_eq; now left|exact I2]).
      rewrite D, E, (closings_none U), (reductions_none U), (reductions_none (own_unmentioned (own_reduction x) Htx)). split; lia.
Qed.

(** In a failed run: closed once or not mentioned at all. *)
Definition once i tr : Prop := unmentioned i tr \/ closings eqb i tr = 1.
Lemma once_app_l : forall i a b, once i a -> unmentioned i b -> once i (a ++ b).
Proof.
  intros i a b [H|H] Hb; [left; now apply unmentioned_app|right]. rewrite closings_app, H, (closings_none Hb). reflexivity.
Qed.
Lemma once_app_r : forall i a b, unmentioned i a -> once i b -> once i (a ++ b).
Proof.
  intros i a b Ha [H|H]; [left; now apply unmentioned_app|right]. rewrite closings_app, H, (closings_none Ha). reflexivity.
Qed.
Lemma fails_once : forall g tr, fails g tr -> NoDup (ids g) -> closings eqb (tid g) tr = 1 /\ forall t, within g t -> once (tid t) tr.
Proof.
  assert (Hparts : forall i ds1 d ds2 tr1 tr2, NoDup (i :: flat_map ids (ds1 ++ d :: ds2)) -> fulls ds1 tr1 -> (forall e, In e tr2 -> In (about e) (ids d)) ->
            (forall t, within d t -> once (tid t) tr2) -> closings eqb i (tr1 ++ tr2 ++ [Closed i false]) = 1 /\
            forall t, within_list (ds1 ++ d :: ds2) t -> once (tid t) (tr1 ++ tr2 ++ [Closed i false])).
  { intros i ds1 d ds2 tr1 tr2 Nd H1 H2 Ho. apply NoDup_cons_iff in Nd. destruct Nd as [N1 N2]. destruct (split_ids _ _ _ N2) as (A & B & C & D & E).
    assert (U1 : forall j, ~ In j (flat_map ids ds1) -> unmentioned j tr1) by (intros j; now apply fulls_unmentioned).
    assert (U2 : forall j, ~ In j (ids d) -> unmentioned j tr2) by (intros j Hj e He Ee; apply Hj; rewrite <- Ee; now apply H2).
    assert (Hni : ~ In i (flat_map ids ds1) /\ ~ In i (ids d)).
    { rewrite flat_map_app in N1. cbn [flat_map] in N1. rewrite !in_app_iff in N1. tauto. }
    split.
    - rewrite !closings_app, closings_self, (closings_none (U1 i (proj1 Hni))), (closings_none (U2 i (proj2 Hni))). reflexivity.
    - intros t Hl. assert (Hti : tid t <> i) by (intros Es; apply N1; rewrite <- Es; exact (within_list_ids Hl)).
      assert (Ui : unmentioned (tid t) [Closed i false]) by (intros e [<-|[]] Ee; cbn in Ee; congruence).
      destruct Hl as (d0 & Hd0 & Ht). apply in_elt_inv in Hd0. rewrite in_app_iff in Hd0.
      assert (Hcase : within_list ds1 t \/ within d t \/ within_list ds2 t).
      { destruct Hd0 as [<-|[Hd0|Hd0]]; [right; now left|left; exists d0; auto|right; right; exists d0; auto]. }
      clear d0 Hd0 Ht. destruct Hcase as [Hl|[Hl|Hl]].
      + apply once_app_l; [right; exact (proj1 (proj2 full_counts ds1 tr1 H1 A t Hl))|]. apply unmentioned_app; [|exact Ui]. apply U2. intros Hi. exact (C _ (within_list_ids Hl) Hi).
      + apply once_app_r; [apply U1; intros Hi; exact (C _ Hi (within_ids Hl))|]. apply once_app_l; [now apply Ho|exact Ui].
      + left. apply unmentioned_app; [apply U1; intros Hi; exact (E _ Hi (within_list_ids Hl))|]. apply unmentioned_app; [apply U2; intros Hi; exact (D _ (within_list_ids Hl) Hi)|exact Ui]. }
  intros g tr H. induction H as [i r ds1 d ds2 tr1 tr2 H1 H2 IH|i r ds1 d ds2 tr1 tr2 H1 H2 Hr|i r ds tr n H]; intros Nd; cbn [ids tid] in *.
  - assert (Nd' := proj2 (proj1 (NoDup_cons_iff _ _) Nd)). destruct (split_ids _ _ _ Nd') as (A & B & _).
    destruct (Hparts i ds1 d ds2 tr1 tr2 Nd H1 (fails_ids H2) (proj2 (IH B))) as [P Q]. split; [exact P|].
    intros t Ht. destruct (within_inv Ht) as [->|Hl]; [right; exact P|now apply Q].
  - assert (Nd' := proj2 (proj1 (NoDup_cons_iff _ _) Nd)). destruct (split_ids _ _ _ Nd') as (A & B & _).
    destruct (proj1 full_counts d tr2 H2 B) as (F1 & F2 & F3).
    destruct (Hparts i ds1 d ds2 tr1 (tr2 ++ [Reduced (tid d)]) Nd H1) as [P Q].
    + intros e He. rewrite in_app_iff in He. destruct He as [He|[<-|[]]]; [exact (proj1 full_ids _ _ H2 e He)|]. cbn [about]. rewrite ids_eq. now left.
    + intros t Ht. right. rewrite closings_app. replace (closings eqb (tid t) [Reduced (tid d)]) with 0 by reflexivity.
      destruct (within_inv Ht) as [->|Hl]; [lia|]. destruct (F3 t Hl). lia.
    + split; [exact P|]. intros t Ht. destruct (within_inv Ht) as [->|Hl]; [right; exact P|now apply Q].
  - apply NoDup_cons_iff in Nd. destruct Nd as [N1 N2]. assert (Hu := fulls_unmentioned H N1).
    assert (P : closings eqb i (tr ++ repeat (Batched i) (S n) ++ [Closed i false]) = 1).
    { rewrite !closings_app, closings_repeat, (closings_none Hu), closings_self. reflexivity. }
    split; [exact P|]. intros t Ht. destruct (within_inv Ht) as [->|Hl]; [right; exact P|]. cbn [tdeps] in Hl.
    apply once_app_l; [right; exact (proj1 (proj2 full_counts ds tr H N2 t Hl))|]. apply (own_unmentioned (own_repeat i (S n) false)).
    intros Es. apply N1. rewrite <- Es. exact (within_list_ids Hl).
Qed.
End Facts.

From Coq Require Import Lia.
From Verif Require Import Base Turns_Model Turns_Spec Turns_Proofs.
Open Scope nat_scope.
Set Implicit Arguments.

Lemma Some3 : forall A B C (a a' : A) (b b' : B) (c c' : C), Some (a, b, c) = Some (a', b', c') -> a' = a /\ b' = b /\ c' = c.
Proof. intros. repeat split; congruence. Qed.

Section Run.
Variables World Exn Id : Type.
Variable m : engine World Exn Id.

(** *** Without streaming a send runs everything *)
Section Off.
Hypothesis Hoff : forall w, streaming m w = false.

Definition shape (g : tasker Id) (tr : list (event Id)) (x : reply Exn Id) : Prop :=
  match x with RYield _ => False | RStop => full g tr | RThrow _ => fails g tr end.
Definition dep_failed (d : tasker Id) (tr : list (event Id)) : Prop :=
  fails d tr \/ (treduces d = true /\ exists tr', full d tr' /\ tr = tr' ++ [Reduced (tid d)]).

Lemma pass_off : forall snd, (forall d w w' tr x, snd d w = Some (w', tr, x) -> shape d tr x) ->
  forall ds w w' tr x, pass m snd ds w = Some (w', tr, x) ->
  match x with
  | inl ds' => ds' = [] /\ fulls ds tr
  | inr _ => exists ds1 d ds2 tr1 tr2, ds = ds1 ++ d :: ds2 /\ fulls ds1 tr1 /\ dep_failed d tr2 /\ tr = tr1 ++ tr2
  end.
Proof.
  intros snd Hs ds. induction ds as [|d ds IH]; intros w w' tr x H; cbn [pass] in H.
  - apply Some3 in H; destruct H as (-> & -> & ->). split; [reflexivity|constructor].
  - destruct (snd d w) as [[[w1 tr1] y]|] eqn:E; [|discriminate]. apply Hs in E. destruct y as [d'| |e]; cbn [shape] in E; [contradiction| |].
    + destruct (treduces d) eqn:Er.
      * destruct (reduce m (tid d) w1) as [w2 [e|]].
        -- apply Some3 in H; destruct H as (-> & -> & ->). exists [], d, ds, [], (tr1 ++ [Reduced (tid d)]). split; [reflexivity|]. split; [constructor|]. split; [|reflexivity].
           right. split; [exact Er|]. exists tr1. auto.
        -- destruct (pass m snd ds w2) as [[[w3 tr2] z]|] eqn:Ep; [|discriminate]. apply Some3 in H; destruct H as (-> & -> & ->). apply IH in Ep.
           assert (Hr : [Reduced (tid d)] = reduction d) by (unfold reduction; now rewrite Er).
           destruct z as [ds'|e].
           ++ destruct Ep as [-> Hf]. split; [reflexivity|]. rewrite app_assoc, Hr. now constructor.
           ++ destruct Ep as (ds1 & d0 & ds2 & t1 & t2 & -> & H1 & H2 & ->). exists (d :: ds1), d0, ds2, ((tr1 ++ reduction d) ++ t1), t2.
              split; [reflexivity|]. split; [now constructor|]. split; [exact H2|]. rewrite <- Hr, <- !app_assoc. reflexivity.
      * destruct (pass m snd ds w1) as [[[w3 tr2] z]|] eqn:Ep; [|discriminate]. apply Some3 in H; destruct H as (-> & -> & ->). apply IH in Ep.
        assert (Hr : tr1 = tr1 ++ reduction d) by (unfold reduction; rewrite Er; now rewrite app_nil_r). rewrite Hr.
        destruct z as [ds'|e].
        -- destruct Ep as [-> Hf]. split; [reflexivity|]. now constructor.
        -- destruct Ep as (ds1 & d0 & ds2 & t1 & t2 & -> & H1 & H2 & ->). exists (d :: ds1), d0, ds2, ((tr1 ++ reduction d) ++ t1), t2.
           split; [reflexivity|]. split; [now constructor|]. split; [exact H2|]. now rewrite <- !app_assoc.
    + apply Some3 in H; destruct H as (-> & -> & ->). exists [], d, ds, [], tr1. split; [reflexivity|]. split; [constructor|]. split; [now left|reflexivity].
Qed.

Lemma full_more : forall i r tr (ds : list (tasker Id)) t1, fulls ds t1 -> full (Tasker i r []) tr -> full (Tasker i r ds) (t1 ++ [Batched i] ++ tr).
Proof.
  intros i r tr ds t1 H1 H. inversion H as [i' r' ds' tr' n Hf]; subst. inversion Hf; subst. cbn [app].
  change (Batched i :: repeat (Batched i) (S n) ++ [Closed i true]) with (repeat (Batched i) (S (S n)) ++ [Closed i true]). now constructor.
Qed.
Lemma fails_more : forall i r tr (ds : list (tasker Id)) t1, fulls ds t1 -> fails (Tasker i r []) tr -> fails (Tasker i r ds) (t1 ++ [Batched i] ++ tr).
Proof.
  intros i r tr ds t1 H1 H. inversion H as [i' r' ds1 d ds2 tr1 tr2 Hf Hd Ei|i' r' ds1 d ds2 tr1 tr2 Hf Hd Hr Ei|i' r' ds' tr' n Hf]; subst.
  - destruct ds1; discriminate.
  - destruct ds1; discriminate.
  - inversion Hf; subst. cbn [app].
    change (Batched i :: repeat (Batched i) (S n) ++ [Closed i false]) with (repeat (Batched i) (S (S n)) ++ [Closed i false]). now constructor.
Qed.

Lemma send_off : forall f g w w' tr x, send m f g w = Some (w', tr, x) -> shape g tr x.
Proof.
  induction f as [|f IH]; intros g w w' tr x H; [discriminate|]. cbn [send] in H. destruct g as [i r ds].
  destruct (pass m (send m f) ds w) as [[[w1 t1] y]|] eqn:Ep; [|discriminate]. apply (pass_off _ IH) in Ep. destruct y as [ds'|e].
  - destruct Ep as [-> Hf]. destruct (batch m i w1) as [w2 [| |e]].
    + rewrite Hoff in H. destruct (send m f (Tasker i r []) w2) as [[[w3 t3] z]|] eqn:Es; [|discriminate]. apply Some3 in H; destruct H as (-> & -> & ->). apply IH in Es.
      destruct z as [g'| |e]; cbn [shape] in *; [exact Es|now apply full_more|now apply fails_more].
    + apply Some3 in H; destruct H as (-> & -> & ->). cbn [shape]. exact (full_i i r 0 Hf).
    + apply Some3 in H; destruct H as (-> & -> & ->). cbn [shape]. exact (fails_batch i r 0 Hf).
  - apply Some3 in H; destruct H as (-> & -> & ->). cbn [shape]. destruct Ep as (ds1 & d & ds2 & t2 & t3 & -> & H1 & H2 & ->). rewrite <- app_assoc.
    destruct H2 as [H2|(Hr & t4 & H2 & ->)]; [now apply fails_dep|now apply fails_reduce].
Qed.
End Off.

(** *** Failures *)
Definition no_failure (tr : list (event Id)) : Prop := forall i, ~ In (Closed i false) tr.
Lemma no_failure_app : forall a b : list (event Id), no_failure a -> no_failure b -> no_failure (a ++ b).
Proof. intros a b Ha Hb i Hi. rewrite in_app_iff in Hi. destruct Hi; [eapply Ha|eapply Hb]; eauto. Qed.
Definition failure (g : tasker Id) (tr : list (event Id)) : Prop :=
  exists tr0 path, tr = tr0 ++ map (fun i => Closed i false) path /\ no_failure tr0 /\ up_to g path.
Definition smaller (d' d : tasker Id) : Prop := tid d' = tid d /\ treduces d' = treduces d /\ forall path, up_to d' path -> up_to d path.

Definition good (g : tasker Id) (tr : list (event Id)) (x : reply Exn Id) : Prop :=
  match x with RYield g' => no_failure tr /\ smaller g' g | RStop => no_failure tr | RThrow _ => failure g tr end.
Lemma no_failure_one : forall e : event Id, (forall i, e <> Closed i false) -> no_failure [e].
Proof. intros e H i [E|[]]. exact (H i E). Qed.

Lemma pass_good : forall snd, (forall d w w' tr x, snd d w = Some (w', tr, x) -> good d tr x) ->
  forall ds w w' tr x, pass m snd ds w = Some (w', tr, x) ->
  match x with
  | inl ds' => no_failure tr /\ forall d', In d' ds' -> exists d, In d ds /\ smaller d' d
  | inr _ => exists tr0 path, tr = tr0 ++ map (fun i => Closed i false) path /\ no_failure tr0 /\ (path = [] \/ exists d, In d ds /\ up_to d path)
  end.
Proof.
  intros snd Hs ds. induction ds as [|d ds IH]; intros w w' tr x H; cbn [pass] in H.
  - apply Some3 in H; destruct H as (-> & -> & ->). split; [intros i []|intros d' []].
  - destruct (snd d w) as [[[w1 tr1] y]|] eqn:E; [|discriminate]. apply Hs in E.
    assert (Hrest : forall a z t2 ds2, no_failure a -> pass m snd ds z = Some (w', t2, ds2) -> forall x0, x0 = ds2 ->
              match x0 with
              | inl ds' => no_failure (a ++ t2) /\ forall d', In d' ds' -> exists d0, In d0 (d :: ds) /\ smaller d' d0
              | inr _ => exists tr0 path, a ++ t2 = tr0 ++ map (fun i => Closed i false) path /\ no_failure tr0 /\ (path = [] \/ exists d0, In d0 (d :: ds) /\ up_to d0 path)
              end).
    { intros a z t2 ds2 Ha Hp x0 ->. apply IH in Hp. destruct ds2 as [ds'|e].
      - destruct Hp as [A B]. split; [now apply no_failure_app|]. intros d' Hd. destruct (B d' Hd) as (d0 & C & D). exists d0. split; [now right|exact D].
      - destruct Hp as (tr0 & path & -> & A & B). exists (a ++ tr0), path. split; [now rewrite app_assoc|]. split; [now apply no_failure_app|].
        destruct B as [B|(d0 & C & D)]; [now left|right; exists d0; split; [now right|exact D]]. }
    destruct y as [d'| |e]; cbn [good] in E.
    + destruct E as [E1 E2]. destruct (pass m snd ds w1) as [[[w2 t2] [ds'|e]]|] eqn:Ep; [| |discriminate]; apply Some3 in H; destruct H as (-> & -> & ->).
      * destruct (Hrest tr1 w1 t2 _ E1 Ep _ eq_refl) as [A B]. split; [exact A|]. intros d0 [<-|Hd]; [exists d; split; [now left|exact E2]|now apply B].
      * exact (Hrest tr1 w1 t2 _ E1 Ep _ eq_refl).
    + destruct (treduces d) eqn:Er.
      * assert (E' : no_failure (tr1 ++ [Reduced (tid d)])) by (apply no_failure_app; [exact E|apply no_failure_one; discriminate]).
        destruct (reduce m (tid d) w1) as [w2 [e|]].
        -- apply Some3 in H; destruct H as (-> & -> & ->). exists (tr1 ++ [Reduced (tid d)]), []. split; [cbn [map]; now rewrite app_nil_r|]. split; [exact E'|now left].
        -- destruct (pass m snd ds w2) as [[[w3 t2] z]|] eqn:Ep; [|discriminate]. apply Some3 in H; destruct H as (-> & -> & ->). rewrite app_assoc. exact (Hrest _ w2 t2 _ E' Ep _ eq_refl).
      * destruct (pass m snd ds w1) as [[[w3 t2] z]|] eqn:Ep; [|discriminate]. apply Some3 in H; destruct H as (-> & -> & ->). exact (Hrest _ w1 t2 _ E Ep _ eq_refl).
    + apply Some3 in H; destruct H as (-> & -> & ->). destruct E as (tr0 & path & -> & A & B). exists tr0, path. split; [reflexivity|]. split; [exact A|]. right. exists d. split; [now left|exact B].
Qed.

Lemma smaller_tasker : forall i r ds ds', (forall d' : tasker Id, In d' ds' -> exists d, In d ds /\ smaller d' d) -> smaller (Tasker i r ds') (Tasker i r ds).
Proof.
  intros i r ds ds' H. split; [reflexivity|]. split; [reflexivity|]. intros path Hp. inversion Hp as [g E|g d' p Hd Hu E]; subst.
  - exact (up_self _ (Tasker i r ds)).
  - destruct (H d' Hd) as (d & Hi & (_ & _ & Hup)). exact (up_dep _ (Tasker i r ds) d p Hi (Hup p Hu)).
Qed.

Lemma send_good : forall f g w w' tr x, send m f g w = Some (w', tr, x) -> good g tr x.
Proof.
  induction f as [|f IH]; intros g w w' tr x H; [discriminate|]. cbn [send] in H. destruct g as [i r ds].
  destruct (pass m (send m f) ds w) as [[[w1 t1] y]|] eqn:Ep; [|discriminate]. apply (pass_good _ IH) in Ep. destruct y as [ds'|e].
  - destruct Ep as [A B]. assert (Hsm := @smaller_tasker i r ds ds' B).
    assert (Ab : no_failure (t1 ++ [Batched i])) by (apply no_failure_app; [exact A|apply no_failure_one; discriminate]).
    destruct (batch m i w1) as [w2 [| |e]].
    + destruct (streaming m w2).
      * apply Some3 in H; destruct H as (-> & -> & ->). split; [exact Ab|exact Hsm].
      * destruct (send m f (Tasker i r ds') w2) as [[[w3 t3] z]|] eqn:Es; [|discriminate]. apply Some3 in H; destruct H as (-> & -> & ->). apply IH in Es.
        rewrite app_assoc. destruct z as [g'| |e]; cbn [good] in *.
        -- destruct Es as [C D]. split; [now apply no_failure_app|]. destruct D as (D1 & D2 & D3). destruct Hsm as (S1 & S2 & S3).
           split; [congruence|]. split; [congruence|]. intros path Hp. auto.
        -- now apply no_failure_app.
        -- destruct Es as (tr0 & path & -> & C & D). exists ((t1 ++ [Batched i]) ++ tr0), path. split; [now rewrite app_assoc|]. split; [now apply no_failure_app|]. now apply Hsm.
    + apply Some3 in H; destruct H as (-> & -> & ->). cbn [good]. change [Batched i; Closed i true] with ([Batched i] ++ [Closed i true]). rewrite app_assoc.
      apply no_failure_app; [exact Ab|apply no_failure_one; discriminate].
    + apply Some3 in H; destruct H as (-> & -> & ->). exists (t1 ++ [Batched i]), [i]. split; [cbn [map]; now rewrite <- app_assoc|]. split; [exact Ab|exact (up_self _ (Tasker i r ds))].
  - apply Some3 in H; destruct H as (-> & -> & ->). destruct Ep as (tr0 & path & -> & A & B). exists tr0, (path ++ [i]). rewrite map_app, app_assoc. split; [reflexivity|]. split; [exact A|].
    destruct B as [->|(d & Hd & Hu)]; [exact (up_self _ (Tasker i r ds))|exact (up_dep _ (Tasker i r ds) d path Hd Hu)].
Qed.

(** *** With streaming a send makes one batch *)
Section On.
Hypothesis Hon : forall w, streaming m w = true.

Definition inside (g : tasker Id) (tr : list (event Id)) : Prop := forall e, In e tr -> In (about e) (ids g).
Definition stepped (g : tasker Id) (tr : list (event Id)) (x : reply Exn Id) : Prop :=
  inside g tr /\ (exists tr1 tr2, tr = tr1 ++ tr2 /\ (forall e, In e tr1 -> In (about e) (flat_map ids (tdeps g))) /\ (forall e, In e tr2 -> about e = tid g) /\
     (forall g', x = RYield g' -> tr2 = [Batched (tid g)])) /\
  (forall g', x = RYield g' -> tid g' = tid g /\ treduces g' = treduces g /\ (exists ds', incl (ids g') (ids g) /\ g' = Tasker (tid g) (treduces g) ds') /\ (NoDup (ids g) -> NoDup (ids g'))) /\
  (NoDup (ids g) -> forall t d, within g t -> subquery t d -> precedes tr (tid d) (tid t)).

Lemma pass_on : forall snd, (forall d w w' tr x, snd d w = Some (w', tr, x) -> stepped d tr x) ->
  forall ds w w' tr x, pass m snd ds w = Some (w', tr, x) ->
  (forall e, In e tr -> In (about e) (flat_map ids ds)) /\
  (forall ds', x = inl ds' -> incl (flat_map ids ds') (flat_map ids ds) /\ (NoDup (flat_map ids ds) -> NoDup (flat_map ids ds'))) /\
  (NoDup (flat_map ids ds) -> forall t d, within_list ds t -> subquery t d -> precedes tr (tid d) (tid t)).
Proof.
  intros snd Hs ds. induction ds as [|d ds IH]; intros w w' tr x H; cbn [pass] in H.
  - apply Some3 in H; destruct H as (-> & -> & ->). split; [intros e []|]. split; [|intros _ t d (d0 & [] & _)]. intros ds' E. injection E as <-. split; [intros z []|intros _; constructor].
  - destruct (snd d w) as [[[w1 tr1] y]|] eqn:E; [|discriminate]. apply Hs in E. destruct E as (E1 & E2 & E3 & E4).
    (* the trace is [tr1 ++ red ++ tr2] *)
    assert (Hgen : forall red tr2, (forall e, In e red -> about e = tid d) -> (forall e, In e tr2 -> In (about e) (flat_map ids ds)) ->
              (NoDup (flat_map ids ds) -> forall t d0, within_list ds t -> subquery t d0 -> precedes tr2 (tid d0) (tid t)) ->
              (forall e, In e ((tr1 ++ red) ++ tr2) -> In (about e) (flat_map ids (d :: ds))) /\
              (NoDup (flat_map ids (d :: ds)) -> forall t d0, within_list (d :: ds) t -> subquery t d0 -> precedes ((tr1 ++ red) ++ tr2) (tid d0) (tid t))).
    { intros red tr2 Hred Ht2 Ho2.
      assert (Hin : forall e, In e (tr1 ++ red) -> In (about e) (ids d)).
      { intros e He. apply in_app_iff in He. destruct He as [He|He]; [now apply E1|]. rewrite (Hred e He), ids_eq. now left. }
      split.
      - intros e He. cbn [flat_map]. apply in_app_iff in He. apply in_app_iff. destruct He; auto.
      - intros Nd t d0 Ht Hsub. cbn [flat_map] in Nd. destruct (nodup_parts _ _ Nd) as (N1 & N2 & N3). destruct Ht as (d1 & [<-|Hd1] & Ht).
        + assert (I1 := within_subquery_ids Ht Hsub). assert (I2 := within_ids Ht).
          assert (U1 : unmentioned (tid d0) tr2) by (intros e He Ee; apply (N3 (tid d0)); [exact I1|rewrite <- Ee; now apply Ht2]).
          apply precedes_app; [|now apply precedes_none_i|now left].
          assert (Hdx : tid d0 <> tid d).
          { rewrite ids_eq in N1. apply NoDup_cons_iff in N1. intros Ex. apply (proj1 N1). rewrite <- Ex. destruct (within_inv Ht) as [->|Hl]; [now apply subquery_ids|].
            exact (within_list_subquery_ids Hl Hsub). }
          assert (U3 : unmentioned (tid d0) red) by (intros e He Ee; rewrite (Hred e He) in Ee; congruence).
          apply precedes_app; [now apply E4|now apply precedes_none_i|now left].
        + assert (Hl : within_list ds t) by (exists d1; auto). assert (I1 := within_list_subquery_ids Hl Hsub).
          assert (U1 : unmentioned (tid d0) (tr1 ++ red)) by (intros e He Ee; apply (N3 (tid d0)); [rewrite <- Ee; now apply Hin|exact I1]).
          assert (U2 : unmentioned (tid t) (tr1 ++ red)) by (intros e He Ee; apply (N3 (tid t)); [rewrite <- Ee; now apply Hin|exact (within_list_ids Hl)]).
          apply precedes_app; [now apply precedes_none_i|now apply Ho2|now right]. }
    assert (Hnil : forall w2 e, w2 = w' -> (forall e0, In e0 ([] : list (event Id)) -> about e0 = tid d) -> x = inr e -> True) by auto. clear Hnil.
    destruct y as [d'| |e].
    + destruct (pass m snd ds w1) as [[[w2 t2] z]|] eqn:Ep; [|discriminate]. destruct (IH _ _ _ _ Ep) as (P1 & P2 & P3).
      destruct (Hgen [] t2 ltac:(intros e []) P1 P3) as [G1 G2]. rewrite app_nil_r in G1, G2.
      destruct (E3 d' eq_refl) as (F1 & F2 & (ds0 & F3 & F4) & F5).
      destruct z as [ds'|e]; apply Some3 in H; destruct H as (-> & -> & ->); (split; [exact G1|]; split; [|exact G2]); [|discriminate].
      intros ds'' Ed. injection Ed as <-. destruct (P2 ds' eq_refl) as [Q1 Q2]. cbn [flat_map]. split.
      * intros z Hz. apply in_app_iff in Hz. apply in_app_iff. destruct Hz as [Hz|Hz]; [left; now apply F3|right; now apply Q1].
      * intros Nd. destruct (nodup_parts _ _ Nd) as (N1 & N2 & N3).
        assert (Hnn : forall a b : list Id, NoDup a -> NoDup b -> (forall z, In z a -> In z b -> False) -> NoDup (a ++ b)).
        { clear. induction a as [|z a IHa]; intros b Ha Hb H; [exact Hb|]. apply NoDup_cons_iff in Ha. cbn [app]. constructor.
          - intros Hi. apply in_app_iff in Hi. destruct Hi as [Hi|Hi]; [now apply (proj1 Ha)|]. apply (H z); [now left|exact Hi].
          - apply IHa; [apply Ha|exact Hb|]. intros y Hy. apply H. now right. }
        apply Hnn; [now apply F5|now apply Q2|]. intros z H1 H2. exact (N3 z (F3 z H1) (Q1 z H2)).
    + assert (Hin2 : forall ds' w2 t2 z, pass m snd ds w2 = Some (w', t2, z) -> z = inl ds' -> incl (flat_map ids ds') (flat_map ids (d :: ds)) /\ (NoDup (flat_map ids (d :: ds)) -> NoDup (flat_map ids ds'))).
      { intros ds' w2 t2 z Ep Ez. destruct (IH _ _ _ _ Ep) as (_ & P2 & _). destruct (P2 ds' Ez) as [Q1 Q2]. cbn [flat_map]. split.
        - intros y Hy. apply in_app_iff. right. now apply Q1.
        - intros Nd. apply Q2. exact (proj1 (proj2 (nodup_parts _ _ Nd))). }
      assert (Hrd : forall e, In e [Reduced (tid d)] -> about e = tid d) by (intros e [<-|[]]; reflexivity).
      destruct (treduces d).
      * destruct (reduce m (tid d) w1) as [w2 [e|]].
        -- apply Some3 in H; destruct H as (-> & -> & ->). destruct (Hgen [Reduced (tid d)] [] Hrd ltac:(intros e0 []) ltac:(intros _ t d0 _ _ l1 e0 l2 El; destruct l1; discriminate)) as [G1 G2].
           rewrite app_nil_r in G1, G2. split; [exact G1|]. split; [discriminate|exact G2].
        -- destruct (pass m snd ds w2) as [[[w3 t2] z]|] eqn:Ep; [|discriminate]. apply Some3 in H; destruct H as (-> & -> & ->). destruct (IH _ _ _ _ Ep) as (P1 & P2 & P3).
           destruct (Hgen [Reduced (tid d)] t2 Hrd P1 P3) as [G1 G2]. rewrite app_assoc. split; [exact G1|]. split; [|exact G2]. intros ds' Ez. exact (Hin2 ds' _ _ _ Ep Ez).
      * destruct (pass m snd ds w1) as [[[w3 t2] z]|] eqn:Ep; [|discriminate]. apply Some3 in H; destruct H as (-> & -> & ->). destruct (IH _ _ _ _ Ep) as (P1 & P2 & P3).
        destruct (Hgen [] t2 ltac:(intros e []) P1 P3) as [G1 G2]. rewrite app_nil_r in G1, G2. split; [exact G1|]. split; [|exact G2]. intros ds' Ez. exact (Hin2 ds' _ _ _ Ep Ez).
    + apply Some3 in H; destruct H as (-> & -> & ->). destruct (Hgen [] [] ltac:(intros e0 []) ltac:(intros e0 []) ltac:(intros _ t d0 _ _ l1 e0 l2 El; destruct l1; discriminate)) as [G1 G2].
      rewrite !app_nil_r in G1, G2. split; [exact G1|]. split; [discriminate|exact G2].
Qed.

Lemma send_on : forall f g w w' tr x, send m f g w = Some (w', tr, x) -> stepped g tr x.
Proof.
  induction f as [|f IH]; intros g w w' tr x H; [discriminate|]. cbn [send] in H. destruct g as [i r ds].
  destruct (pass m (send m f) ds w) as [[[w1 t1] y]|] eqn:Ep; [|discriminate]. apply (pass_on _ IH) in Ep. destruct Ep as (P1 & P2 & P3).
  assert (Hgen : forall t2, (forall e, In e t2 -> about e = i) -> inside (Tasker i r ds) (t1 ++ t2) /\
            (NoDup (ids (Tasker i r ds)) -> forall t d, within (Tasker i r ds) t -> subquery t d -> precedes (t1 ++ t2) (tid d) (tid t))).
  { intros t2 Ht2. split.
    - intros e He. cbn [ids]. apply in_app_iff in He. destruct He as [He|He]; [right; now apply P1|left; symmetry; now apply Ht2].
    - intros Nd t d Ht Hs. cbn [ids] in Nd. apply NoDup_cons_iff in Nd. destruct Nd as [N1 N2].
      assert (Hd : tid d <> i).
      { intros Ed. apply N1. rewrite <- Ed. destruct (within_inv Ht) as [->|Hl]; [exact (subquery_ids Hs)|exact (within_list_subquery_ids Hl Hs)]. }
      assert (U : unmentioned (tid d) t2) by (intros e He Ee; rewrite (Ht2 e He) in Ee; congruence).
      apply precedes_app; [|now apply precedes_none_i|now left].
      destruct (within_inv Ht) as [->|Hl]; [|now apply P3]. apply precedes_none_j. intros e He Ee. apply N1. cbn [tid] in Ee. rewrite <- Ee. now apply P1. }
  assert (Hown : forall l : list (event Id), (forall e, In e l -> about e = i) -> forall t2, t2 = l -> forall e, In e t2 -> about e = tid (Tasker i r ds)) by (intros l Hl t2 -> e He; now apply Hl).
  destruct y as [ds'|e].
  - destruct (P2 ds' eq_refl) as [Q1 Q2]. destruct (batch m i w1) as [w2 [| |e]].
    + rewrite Hon in H. apply Some3 in H; destruct H as (-> & -> & ->). destruct (Hgen [Batched i]) as [G1 G2]; [intros e [<-|[]]; reflexivity|].
      split; [exact G1|]. split; [|split; [|exact G2]].
      * exists t1, [Batched i]. split; [reflexivity|]. split; [exact P1|]. split; [intros e [<-|[]]; reflexivity|]. intros g' _. reflexivity.
      * intros g' Eg. injection Eg as <-. cbn [tid treduces]. split; [reflexivity|]. split; [reflexivity|]. split.
        -- exists ds'. split; [|reflexivity]. intros z Hz. cbn [ids] in *. destruct Hz as [<-|Hz]; [now left|right; now apply Q1].
        -- intros Nd. cbn [ids] in *. apply NoDup_cons_iff in Nd. destruct Nd as [N1 N2]. constructor; [intros Hi; apply N1; now apply Q1|now apply Q2].
    + apply Some3 in H; destruct H as (-> & -> & ->). assert (Ho : forall e, In e [Batched i; Closed i true] -> about e = i) by (intros e [<-|[<-|[]]]; reflexivity).
      destruct (Hgen _ Ho) as [G1 G2]. split; [exact G1|]. split; [|split; [discriminate|exact G2]].
      exists t1, [Batched i; Closed i true]. split; [reflexivity|]. split; [exact P1|]. split; [exact Ho|discriminate].
    + apply Some3 in H; destruct H as (-> & -> & ->). assert (Ho : forall e0, In e0 [Batched i; Closed i false] -> about e0 = i) by (intros e0 [<-|[<-|[]]]; reflexivity).
      destruct (Hgen _ Ho) as [G1 G2]. split; [exact G1|]. split; [|split; [discriminate|exact G2]].
      exists t1, [Batched i; Closed i false]. split; [reflexivity|]. split; [exact P1|]. split; [exact Ho|discriminate].
  - apply Some3 in H; destruct H as (-> & -> & ->). assert (Ho : forall e0, In e0 [Closed i false] -> about e0 = i) by (intros e0 [<-|[]]; reflexivity).
    destruct (Hgen _ Ho) as [G1 G2]. split; [exact G1|]. split; [|split; [discriminate|exact G2]].
    exists t1, [Closed i false]. split; [reflexivity|]. split; [exact P1|]. split; [exact Ho|discriminate].
Qed.
End On.
End Run.

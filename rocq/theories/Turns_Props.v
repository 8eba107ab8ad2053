(** C184-C188: how statements and their subqueries take turns. *)
From Coq Require Import Lia.
From Verif Require Import Base Turns_Model Turns_Spec Turns_Proofs Turns_Run.
Open Scope nat_scope.

Section Props.
Variables World Exn Id : Type.
Variable m : engine World Exn Id.
Variable eqb : Id -> Id -> bool.
Hypothesis Heqb : forall i j, eqb i j = true <-> i = j.
Implicit Types (g t d a b : tasker Id) (tr : list (event Id)) (q : list (tasker Id)).

(** What a turn adds to a send. *)
Lemma turn_cases : forall fuel g w w' tr o, turn m fuel g w = Some (w', tr, o) ->
  exists w1 tr1 x, send m fuel g w = Some (w1, tr1, x) /\
    match x with
    | RYield g' => tr = tr1 /\ o = Again g'
    | RThrow e => tr = tr1 /\ o = Failed e
    | RStop => (treduces g = false /\ tr = tr1 /\ o = Finished) \/
               (treduces g = true /\ tr = tr1 ++ [Reduced (tid g)] /\ (o = Finished \/ exists e, o = Failed e))
    end.
Proof.
  intros fuel g w w' tr o H. unfold turn in H. destruct (send m fuel g w) as [[[w1 tr1] x]|] eqn:E; [|discriminate]. exists w1, tr1, x. split; [reflexivity|].
  destruct x as [g'| |e]; [apply Some3 in H; destruct H as (_ & -> & ->); auto| |apply Some3 in H; destruct H as (_ & -> & ->); auto].
  destruct (treduces g) eqn:Er.
  - right. split; [reflexivity|]. destruct (reduce m (tid g) w1) as [w2 [e|]]; apply Some3 in H; destruct H as (_ & -> & ->); (split; [reflexivity|]); [right; eauto|now left].
  - left. apply Some3 in H. destruct H as (_ & -> & ->). auto.
Qed.

(** The reduction of the statement itself comes last and changes nothing of the order. *)
Lemma reduced_last : forall g tr t d, NoDup (ids g) -> within g t -> subquery t d -> precedes tr (tid d) (tid t) /\ ready tr (closed_before d) (tid t) ->
  precedes (tr ++ [Reduced (tid g)]) (tid d) (tid t) /\ ready (tr ++ [Reduced (tid g)]) (closed_before d) (tid t).
Proof.
  intros g tr t d Nd Ht Hs [A B].
  assert (Hd : tid d <> tid g).
  { rewrite ids_eq in Nd. apply NoDup_cons_iff in Nd. intros E. apply (proj1 Nd). rewrite <- E.
    destruct (within_inv Ht) as [->|Hl]; [now apply subquery_ids|exact (within_list_subquery_ids Hl Hs)]. }
  assert (U : unmentioned (tid d) [Reduced (tid g)]) by (intros e [<-|[]] Ee; cbn in Ee; congruence). split.
  - apply precedes_app; [exact A|now apply precedes_none_i|now left].
  - apply ready_app; [exact B|left]. intros l1 l2 E. destruct l1 as [|? l1]; [discriminate|destruct l1; discriminate].
Qed.

(** C184: without streaming, a statement is run in one turn; every subquery, at any depth, is over before the query that uses it does anything,
    and has been closed (and reduced, if it aggregates) before each of its batches; if the statement finishes, each tasker was closed once, and
    reduced once if it aggregates. *)
Theorem subqueries_complete_first : forall fuel g w w' tr o, (forall w0, streaming m w0 = false) -> NoDup (ids g) ->
  turn m fuel g w = Some (w', tr, o) ->
  (forall g', o <> Again g') /\
  (forall t d, within g t -> subquery t d -> precedes tr (tid d) (tid t)) /\
  (forall t d l1 l2, within g t -> subquery t d -> tr = l1 ++ Batched (tid t) :: l2 ->
     In (Closed (tid d) true) l1 /\ (treduces d = true -> In (Reduced (tid d)) l1)) /\
  (o = Finished -> forall t, within g t -> closings eqb (tid t) tr = 1 /\ In (Closed (tid t) true) tr /\ reductions eqb (tid t) tr = if treduces t then 1 else 0).
Proof.
  intros fuel g w w' tr o Hoff Nd H. destruct (turn_cases _ _ _ _ _ _ H) as (w1 & tr1 & x & Hs & Hc). assert (Hsh := send_off m Hoff _ _ _ Hs).
  assert (Hord : (forall t d, within g t -> subquery t d -> precedes tr1 (tid d) (tid t) /\ ready tr1 (closed_before d) (tid t)) ->
            forall t d, within g t -> subquery t d -> precedes (tr1 ++ [Reduced (tid g)]) (tid d) (tid t) /\ ready (tr1 ++ [Reduced (tid g)]) (closed_before d) (tid t)).
  { intros Ho t d Ht Hd. apply reduced_last; auto. }
  destruct x as [g'| |e]; cbn [shape] in Hsh; [contradiction| |].
  - assert (Ho : forall t d, within g t -> subquery t d -> precedes tr1 (tid d) (tid t) /\ ready tr1 (closed_before d) (tid t)) by (intros t d; now apply (proj1 (full_order Id))).
    destruct (proj1 (full_counts eqb Heqb) g tr1 Hsh Nd) as (C1 & C2 & C3). destruct (proj1 (full_closed Id) g tr1 Hsh) as [D1 D2].
    destruct Hc as [(Er & -> & ->)|(Er & -> & Hc)].
    + split; [discriminate|]. split; [intros t d Ht Hd; exact (proj1 (Ho t d Ht Hd))|]. split; [intros t d l1 l2 Ht Hd El; exact (proj2 (Ho t d Ht Hd) l1 l2 El)|].
      intros _ t Ht. destruct (within_inv Ht) as [->|Hl]; [rewrite Er; auto|]. destruct (C3 t Hl) as [A B]. split; [exact A|]. split; [exact (proj1 (D2 t Hl))|exact B].
    + split; [intros g' E; destruct Hc as [->|(e & ->)]; discriminate|]. specialize (Hord Ho).
      split; [intros t d Ht Hd; exact (proj1 (Hord t d Ht Hd))|]. split; [intros t d l1 l2 Ht Hd El; exact (proj2 (Hord t d Ht Hd) l1 l2 El)|].
      intros _ t Ht. rewrite closings_app, reductions_app. replace (closings eqb (tid t) [Reduced (tid g)]) with 0 by reflexivity.
      destruct (within_inv Ht) as [->|Hl].
      * rewrite C1, C2, Er. split; [reflexivity|]. split; [rewrite in_app_iff; now left|]. unfold reductions, count. cbn [filter]. rewrite (proj2 (Heqb _ _) eq_refl). reflexivity.
      * destruct (C3 t Hl) as [A B]. rewrite A, B. split; [reflexivity|]. split; [rewrite in_app_iff; left; exact (proj1 (D2 t Hl))|].
        assert (Hne : eqb (tid t) (tid g) = false).
        { destruct (eqb (tid t) (tid g)) eqn:E; [|reflexivity]. apply Heqb in E. rewrite ids_eq in Nd. apply NoDup_cons_iff in Nd. exfalso. apply (proj1 Nd). rewrite <- E. exact (within_list_ids Hl). }
        unfold reductions at 1, count. cbn [filter]. rewrite Hne. cbn [length]. lia.
  - destruct Hc as [-> ->]. assert (Ho := fun t d => @fails_order Id g tr1 Hsh Nd t d).
    split; [discriminate|]. split; [intros t d Ht Hd; exact (proj1 (Ho t d Ht Hd))|]. split; [intros t d l1 l2 Ht Hd El; exact (proj2 (Ho t d Ht Hd) l1 l2 El)|]. discriminate.
Qed.

(** C185: statements that fail.  Nothing happens after a failure but the closing, as failed, of the tasker that failed and of those that use it,
    one after the other up to the statement itself; no other tasker is closed as failed.  (If the reduction of the statement itself fails, all are closed already.) *)
Theorem failure_closes_users : forall fuel g w w' tr e, turn m fuel g w = Some (w', tr, Failed e) ->
  (exists tr0 path, tr = tr0 ++ map (fun i => Closed i false) path /\ (forall i, ~ In (Closed i false) tr0) /\ up_to g path) \/
  (exists tr0, tr = tr0 ++ [Reduced (tid g)] /\ (forall i, ~ In (Closed i false) tr0)).
Proof.
  intros fuel g w w' tr e H. destruct (turn_cases _ _ _ _ _ _ H) as (w1 & tr1 & x & Hs & Hc). assert (Hg := send_good m _ _ _ Hs). destruct x as [g'| |e']; cbn [good] in Hg.
  - destruct Hc; discriminate.
  - destruct Hc as [(_ & _ & E)|(_ & -> & _)]; [discriminate|]. right. exists tr1. auto.
  - destruct Hc as [-> _]. left. exact Hg.
Qed.

(** ... and without streaming, whatever was begun is closed exactly once, in a failed statement too. *)
Theorem begun_is_closed_once : forall fuel g w w' tr o, (forall w0, streaming m w0 = false) -> NoDup (ids g) -> turn m fuel g w = Some (w', tr, o) ->
  forall t e, within g t -> In e tr -> about e = tid t -> closings eqb (tid t) tr = 1.
Proof.
  intros fuel g w w' tr o Hoff Nd H t e Ht He Ee. destruct (turn_cases _ _ _ _ _ _ H) as (w1 & tr1 & x & Hs & Hc). assert (Hsh := send_off m Hoff _ _ _ Hs).
  destruct x as [g'| |e']; cbn [shape] in Hsh; [contradiction| |].
  - destruct (proj1 (full_counts eqb Heqb) g tr1 Hsh Nd) as (C1 & _ & C3).
    assert (C : closings eqb (tid t) tr1 = 1) by (destruct (within_inv Ht) as [->|Hl]; [exact C1|exact (proj1 (C3 t Hl))]).
    destruct Hc as [(_ & -> & _)|(_ & -> & _)]; [exact C|]. rewrite closings_app, C. reflexivity.
  - destruct Hc as [-> _]. destruct (fails_once eqb Heqb Hsh Nd) as [_ C]. destruct (C t Ht) as [U|C']; [|exact C']. exfalso. exact (U e He Ee).
Qed.

(** C187: without streaming, statements run one after the other: nothing of a statement happens after anything of a later one. *)
Theorem statements_in_sequence : forall n fuel q w w' tr q' x, (forall w0, streaming m w0 = false) -> NoDup (flat_map ids q) ->
  execute m n fuel q w = Some (w', tr, q', x) ->
  (forall q1 a q2 b i j, q = q1 ++ a :: q2 -> In b q2 -> In i (ids a) -> In j (ids b) -> precedes tr i j) /\
  exists done, q = done ++ q'.
Proof.
  assert (Hturn : forall fuel g w w' tr o, (forall w0, streaming m w0 = false) -> turn m fuel g w = Some (w', tr, o) ->
            (forall e, In e tr -> In (about e) (ids g)) /\ forall g', o <> Again g').
  { intros fuel g w w' tr o Hoff H. destruct (turn_cases _ _ _ _ _ _ H) as (w1 & tr1 & x & Hs & Hc). assert (Hsh := send_off m Hoff _ _ _ Hs).
    destruct x as [g'| |e']; cbn [shape] in Hsh; [contradiction| |].
    - assert (Hi := proj1 (full_ids Id) g tr1 Hsh). destruct Hc as [(_ & -> & ->)|(_ & -> & Hc)].
      + split; [exact Hi|discriminate].
      + split; [|intros g' E; destruct Hc as [->|(e & ->)]; discriminate].
        intros e He. apply in_app_iff in He. destruct He as [He|[<-|[]]]; [now apply Hi|]. cbn [about]. rewrite ids_eq. now left.
    - destruct Hc as [-> ->]. split; [exact (fails_ids Hsh)|discriminate]. }
  assert (Hin : forall n fuel q w w' tr q' x, (forall w0, streaming m w0 = false) -> execute m n fuel q w = Some (w', tr, q', x) -> forall e, In e tr -> In (about e) (flat_map ids q)).
  { induction n as [|n IH]; intros fuel q w w' tr q' x Hoff H e He; destruct q as [|g q]; cbn [execute] in H; try (injection H as <- <- <- <-; destruct He; fail).
    destruct (turn m fuel g w) as [[[w1 t1] o]|] eqn:Et; [|discriminate]. destruct (Hturn _ _ _ _ _ _ Hoff Et) as [A B]. cbn [flat_map]. apply in_app_iff.
    destruct o as [g'| |e1]; [exfalso; exact (B g' eq_refl)| |].
    - rewrite app_nil_r in H. destruct (execute m n fuel q w1) as [[[[w2 t2] q2] x2]|] eqn:Ex; [|discriminate].
      assert (Etr : tr = t1 ++ t2) by congruence. rewrite Etr in He. apply in_app_iff in He. destruct He as [He|He]; [left; now apply A|right; exact (IH _ _ _ _ _ _ _ Hoff Ex e He)].
    - assert (Etr : tr = t1) by congruence. rewrite Etr in He. left. now apply A. }
  induction n as [|n IH]; intros fuel q w w' tr q' x Hoff Nd H; destruct q as [|g q]; cbn [execute] in H;
    try (injection H as <- <- <- <-; (split; [intros q1 a q2 b i j _ _ _ _; apply precedes_none_i; intros e []|exists []; reflexivity])).
  destruct (turn m fuel g w) as [[[w1 t1] o]|] eqn:Et; [|discriminate]. destruct (Hturn _ _ _ _ _ _ Hoff Et) as [A B].
  cbn [flat_map] in Nd. destruct (nodup_parts _ _ Nd) as (N1 & N2 & N3).
  (* the events of the first statement lie in front *)
  assert (Hg : forall t2 : list (event Id), (forall e, In e t2 -> In (about e) (flat_map ids q)) ->
            (forall q1 a q2 b i j, q = q1 ++ a :: q2 -> In b q2 -> In i (ids a) -> In j (ids b) -> precedes t2 i j) ->
            forall q1 a q2 b i j, g :: q = q1 ++ a :: q2 -> In b q2 -> In i (ids a) -> In j (ids b) -> precedes (t1 ++ t2) i j).
  { intros t2 H2 Ho q1 a q2 b i j Eq Hb Hi Hj.
    assert (Hjq : In j (flat_map ids q)).
    { apply in_flat_map. exists b. split; [|exact Hj]. destruct q1 as [|z q1]; cbn [app] in Eq; [injection Eq as _ ->; exact Hb|]. injection Eq as _ ->.
      apply in_app_iff. right. now right. }
    assert (Uj : unmentioned j t1) by (intros e He Ee; apply (N3 j); [rewrite <- Ee; now apply A|exact Hjq]).
    apply precedes_app; [now apply precedes_none_j| |now right].
    destruct q1 as [|z q1]; cbn [app] in Eq.
    - injection Eq as <- <-. apply precedes_none_i. intros e He Ee. apply (N3 i); [exact Hi|rewrite <- Ee; now apply H2].
    - injection Eq as _ Eq. exact (Ho q1 a q2 b i j Eq Hb Hi Hj). }
  destruct o as [g'| |e1]; [exfalso; exact (B g' eq_refl)| |].
  - rewrite app_nil_r in H. destruct (execute m n fuel q w1) as [[[[w2 t2] q2] x2]|] eqn:Ex; [|discriminate].
    destruct (IH _ _ _ _ _ _ _ Hoff N2 Ex) as [C (done & D)].
    assert (Etr : tr = t1 ++ t2) by congruence. assert (Eq' : q' = q2) by congruence. rewrite Etr, Eq'. split; [|exists (g :: done); cbn [app]; now rewrite D].
    apply Hg; [exact (Hin _ _ _ _ _ _ _ _ Hoff Ex)|exact C].
  - assert (Etr : tr = t1) by congruence. assert (Eq' : q' = q) by congruence. rewrite Etr, Eq'. split; [|exists [g]; reflexivity].
    intros q1 a q2 b i j Eq Hb Hi Hj. rewrite <- (app_nil_r t1). apply (Hg []) with (q1 := q1) (a := a) (q2 := q2) (b := b); auto; [intros e []|].
    intros q3 a0 q4 b0 i0 j0 _ _ _ _. apply precedes_none_i. intros e [].
Qed.

(** With streaming: one turn. *)
Lemma turn_on : forall fuel g w w' tr o, (forall w0, streaming m w0 = true) -> NoDup (ids g) -> turn m fuel g w = Some (w', tr, o) ->
  (forall e, In e tr -> In (about e) (ids g)) /\
  (forall t d, within g t -> subquery t d -> precedes tr (tid d) (tid t)) /\
  (forall g', o = Again g' -> tid g' = tid g /\ incl (ids g') (ids g) /\ NoDup (ids g') /\ batches eqb (tid g) tr = 1).
Proof.
  intros fuel g w w' tr o Hon Nd H. destruct (turn_cases _ _ _ _ _ _ H) as (w1 & tr1 & x & Hs & Hc). destruct (send_on m Hon _ _ _ Hs) as (A & B & C & D).
  assert (Hred : (forall e, In e (tr1 ++ [Reduced (tid g)]) -> In (about e) (ids g)) /\
                 forall t d, within g t -> subquery t d -> precedes (tr1 ++ [Reduced (tid g)]) (tid d) (tid t)).
  { split; [intros e He; apply in_app_iff in He; destruct He as [He|[<-|[]]]; [now apply A|cbn [about]; rewrite ids_eq; now left]|].
    intros t d Ht Hd. assert (Hdg : tid d <> tid g).
    { rewrite ids_eq in Nd. apply NoDup_cons_iff in Nd. intros E. apply (proj1 Nd). rewrite <- E.
      destruct (within_inv Ht) as [->|Hl]; [now apply subquery_ids|exact (within_list_subquery_ids Hl Hd)]. }
    assert (U : unmentioned (tid d) [Reduced (tid g)]) by (intros e [<-|[]] Ee; cbn in Ee; congruence).
    apply precedes_app; [now apply D|now apply precedes_none_i|now left]. }
  destruct x as [g'| |e'].
  - destruct Hc as [-> ->]. split; [exact A|]. split; [now apply D|]. intros g0 E. assert (g' = g0) by congruence. subst g0.
    destruct (C g' eq_refl) as (C1 & C2 & (ds' & C3 & C4) & C5). split; [exact C1|]. split; [exact C3|]. split; [now apply C5|].
    destruct B as (u1 & u2 & -> & B1 & B2 & B3). rewrite (B3 g' eq_refl), batches_app.
    assert (U : unmentioned (tid g) u1).
    { intros e He Ee. rewrite ids_eq in Nd. apply NoDup_cons_iff in Nd. apply (proj1 Nd). rewrite <- Ee. now apply B1. }
    rewrite (batches_none eqb Heqb U). unfold batches, count. cbn [filter]. rewrite (proj2 (Heqb _ _) eq_refl). reflexivity.
  - destruct Hc as [(_ & -> & ->)|(_ & -> & Hc)]; [split; [exact A|]; split; [now apply D|discriminate]|]. destruct Hred as [E F]. split; [exact E|]. split; [exact F|].
    intros g' E'. destruct Hc as [->|(e & ->)]; discriminate.
  - destruct Hc as [-> ->]. split; [exact A|]. split; [now apply D|discriminate].
Qed.

(** C186: with streaming, in each turn of a statement every subquery makes its batch before the query that uses it. *)
Theorem turn_subqueries_first : forall fuel g w w' tr o, (forall w0, streaming m w0 = true) -> NoDup (ids g) -> turn m fuel g w = Some (w', tr, o) ->
  forall t d, within g t -> subquery t d -> precedes tr (tid d) (tid t).
Proof. intros fuel g w w' tr o Hon Nd H. exact (proj1 (proj2 (turn_on _ _ _ _ _ _ Hon Nd H))). Qed.

Lemma incl_flat : forall (q1 q2 : list (tasker Id)) g g', incl (ids g') (ids g) -> NoDup (ids g') -> NoDup (ids g ++ flat_map ids q1) -> NoDup (flat_map ids (q1 ++ [g'])) /\ incl (flat_map ids (q1 ++ [g'])) (ids g ++ flat_map ids q1).
Proof.
  intros q1 _ g g' Hi Ng Nd. rewrite flat_map_app. cbn [flat_map]. rewrite app_nil_r. destruct (nodup_parts _ _ Nd) as (N1 & N2 & N3). split.
  - assert (Hnn : forall a b : list Id, NoDup a -> NoDup b -> (forall z, In z a -> In z b -> False) -> NoDup (a ++ b)).
    { clear. induction a as [|z a IHa]; intros b Ha Hb H; [exact Hb|]. apply NoDup_cons_iff in Ha. cbn [app]. constructor.
      - intros Hi. apply in_app_iff in Hi. destruct Hi as [Hi|Hi]; [now apply (proj1 Ha)|]. apply (H z); [now left|exact Hi].
      - apply IHa; [apply Ha|exact Hb|]. intros y Hy. apply H. now right. }
    apply Hnn; auto. intros z H1 H2. exact (N3 z (Hi z H2) H1).
  - intros z Hz. apply in_app_iff in Hz. apply in_app_iff. destruct Hz as [Hz|Hz]; [now right|left; now apply Hi].
Qed.

(** [even k q1 q2 cnt]: the statements of q1 have made k batches, those of q2 one more. *)
Definition even (k : nat) (q1 q2 : list (tasker Id)) (cnt : Id -> nat) : Prop :=
  (forall g, In g q1 -> cnt (tid g) = k) /\ (forall g, In g q2 -> cnt (tid g) = S k).

Lemma fair : forall n fuel k q1 q2 cnt w w' tr q' x, (forall w0, streaming m w0 = true) -> NoDup (flat_map ids (q1 ++ q2)) -> even k q1 q2 cnt ->
  execute m n fuel (q1 ++ q2) w = Some (w', tr, q', x) ->
  exists k' q3 q4, q' = q3 ++ q4 /\ even k' q3 q4 (fun i => cnt i + batches eqb i tr).
Proof.
  assert (Hstep : forall n, (forall fuel k q1 q2 cnt w w' tr q' x, (forall w0, streaming m w0 = true) -> NoDup (flat_map ids (q1 ++ q2)) -> even k q1 q2 cnt ->
              execute m n fuel (q1 ++ q2) w = Some (w', tr, q', x) -> exists k' q3 q4, q' = q3 ++ q4 /\ even k' q3 q4 (fun i => cnt i + batches eqb i tr)) ->
            forall fuel k g q1 q2 cnt w w' tr q' x, (forall w0, streaming m w0 = true) -> NoDup (flat_map ids ((g :: q1) ++ q2)) -> even k (g :: q1) q2 cnt ->
            execute m (S n) fuel ((g :: q1) ++ q2) w = Some (w', tr, q', x) -> exists k' q3 q4, q' = q3 ++ q4 /\ even k' q3 q4 (fun i => cnt i + batches eqb i tr)).
  { intros n IH fuel k g q1 q2 cnt w w' tr q' x Hon Nd [E1 E2] H. cbn [app] in H. cbn [execute] in H.
    destruct (turn m fuel g w) as [[[w1 t1] o]|] eqn:Et; [|discriminate]. cbn [app flat_map] in Nd. destruct (nodup_parts _ _ Nd) as (N1 & N2 & N3).
    destruct (turn_on _ _ _ _ _ _ Hon N1 Et) as (A & _ & C).
    assert (Hother : forall g0, In g0 (q1 ++ q2) -> batches eqb (tid g0) t1 = 0).
    { intros g0 Hg. apply (batches_none eqb Heqb). intros e He Ee. apply (N3 (tid g0)); [rewrite <- Ee; now apply A|]. apply in_flat_map. exists g0. split; [exact Hg|]. rewrite ids_eq. now left. }
    destruct o as [g'| |e].
    - destruct (C g' eq_refl) as (C1 & C2 & C3 & C4). destruct (incl_flat (q1 ++ q2) [] g g' C2 C3 Nd) as [Nd' _].
      destruct (execute m n fuel ((q1 ++ q2) ++ [g']) w1) as [[[[w2 t2] q3] x2]|] eqn:Ex; [|discriminate]. rewrite <- app_assoc in Ex, Nd'.
      destruct (IH fuel k q1 (q2 ++ [g']) (fun i => cnt i + batches eqb i t1) w1 w2 t2 q3 x2 Hon Nd') as (k' & q5 & q6 & Eq & Ee); [|exact Ex|].
      + split.
        * intros g0 Hg. rewrite (Hother g0) by (apply in_app_iff; now left). rewrite Nat.add_0_r. apply E1. now right.
        * intros g0 Hg. apply in_app_iff in Hg. destruct Hg as [Hg|[<-|[]]].
          -- rewrite (Hother g0) by (apply in_app_iff; now right). rewrite Nat.add_0_r. now apply E2.
          -- rewrite C1, C4, (E1 g (or_introl eq_refl)). lia.
      + exists k', q5, q6. split; [congruence|]. assert (Etr : tr = t1 ++ t2) by congruence. rewrite Etr. destruct Ee as [F1 F2].
        split; intros g0 Hg; rewrite batches_app, Nat.add_assoc; [now apply F1|now apply F2].
    - rewrite app_nil_r in H. destruct (execute m n fuel (q1 ++ q2) w1) as [[[[w2 t2] q3] x2]|] eqn:Ex; [|discriminate].
      destruct (IH fuel k q1 q2 (fun i => cnt i + batches eqb i t1) w1 w2 t2 q3 x2 Hon N2) as (k' & q5 & q6 & Eq & Ee); [|exact Ex|].
      + split; intros g0 Hg; (rewrite (Hother g0) by (apply in_app_iff; auto)); rewrite Nat.add_0_r; [apply E1; now right|now apply E2].
      + exists k', q5, q6. split; [congruence|]. assert (Etr : tr = t1 ++ t2) by congruence. rewrite Etr. destruct Ee as [F1 F2].
        split; intros g0 Hg; rewrite batches_app, Nat.add_assoc; [now apply F1|now apply F2].
    - exists k, q1, q2. split; [congruence|]. assert (Etr : tr = t1) by congruence. rewrite Etr.
      split; intros g0 Hg; (rewrite (Hother g0) by (apply in_app_iff; auto)); rewrite Nat.add_0_r; [apply E1; now right|now apply E2]. }
  induction n as [|n IH]; intros fuel k q1 q2 cnt w w' tr q' x Hon Nd Hev H.
  - assert (Er : q' = q1 ++ q2 /\ tr = []) by (destruct (q1 ++ q2) eqn:Eq; cbn [execute] in H; split; congruence). destruct Er as [-> ->].
    exists k, q1, q2. split; [reflexivity|]. destruct Hev as [A B]. split; intros g Hg; unfold batches, count; cbn [filter length]; rewrite Nat.add_0_r; auto.
  - destruct q1 as [|g q1].
    + destruct q2 as [|g q2].
      * cbn [app execute] in H. exists 0, [], []. split; [cbn [app]; congruence|]. split; intros g [].
      * destruct Hev as [A B]. replace ([] ++ g :: q2) with ((g :: q2) ++ []) in * by apply app_nil_r.
        apply (Hstep n IH fuel (S k) g q2 [] cnt w w' tr q' x Hon); auto. split; [exact B|intros g0 []].
    + exact (Hstep n IH fuel k g q1 q2 cnt w w' tr q' x Hon Nd Hev H).
Qed.

(** C186: with streaming, the statements that are still running have made, at every moment, the same number of batches, up to one. *)
Theorem statements_take_turns : forall n fuel q w w' tr q' x, (forall w0, streaming m w0 = true) -> NoDup (flat_map ids q) ->
  execute m n fuel q w = Some (w', tr, q', x) ->
  forall a b, In a q' -> In b q' -> batches eqb (tid a) tr <= S (batches eqb (tid b) tr).
Proof.
  intros n fuel q w w' tr q' x Hon Nd H a b Ha Hb.
  destruct (fair n fuel 0 q [] (fun _ => 0) w w' tr q' x Hon) as (k & q3 & q4 & -> & E1 & E2); [now rewrite app_nil_r|split; [reflexivity|intros g []]|now rewrite app_nil_r|].
  cbn [plus] in E1, E2. apply in_app_iff in Ha, Hb. destruct Ha as [Ha|Ha], Hb as [Hb|Hb]; rewrite ?(E1 _ Ha), ?(E1 _ Hb), ?(E2 _ Ha), ?(E2 _ Hb); lia.
Qed.
End Props.
Print Assumptions subqueries_complete_first.
Print Assumptions failure_closes_users.
Print Assumptions begun_is_closed_once.
Print Assumptions statements_in_sequence.
Print Assumptions turn_subqueries_first.
Print Assumptions statements_take_turns.

(** A small engine: the world holds, for each tasker, the batches it still makes before the last one; tasker 9 fails in its last one. *)
Definition left (w : list nat) (i : nat) : nat := nth i w 0.
Fixpoint spend (w : list nat) (i : nat) : list nat :=
  match w, i with [], _ => [] | x :: r, O => pred x :: r | x :: r, S i => x :: spend r i end.
Definition small (on : bool) : engine (list nat) nat nat :=
  {| batch := fun i w => match left w i with O => (w, if Nat.eqb i 9 then Throws 7 else Stops) | S _ => (spend w i, Yields) end;
     reduce := fun i w => (w, None); close := fun i ok w => w; streaming := fun _ => on |}.

(** C188: with streaming, a statement can be finished while a subquery of it is neither closed nor, though it aggregates, reduced; and
    when one subquery fails, another that has begun is never closed. *)
Theorem streaming_abandons_subqueries_refuted :
  ~ (forall (World Exn : Type) (m : engine World Exn nat) n fuel q w w' tr x, NoDup (flat_map ids q) ->
       execute m n fuel q w = Some (w', tr, [], x) ->
       forall g t, In g q -> within g t -> In (Batched (tid t)) tr -> closings Nat.eqb (tid t) tr = 1).
Proof.
  intros H.
  pose (q := [Tasker 0 false [Tasker 1 true []]]). pose (w := [1; 5]).
  assert (E := H (list nat) nat (small true) 5 10 q w [0; 3] [Batched 1; Batched 0; Batched 1; Batched 0; Closed 0 true] None).
  assert (C : closings Nat.eqb 1 [Batched 1; Batched 0; Batched 1; Batched 0; Closed 0 true] = 1).
  { apply (E ltac:(repeat constructor; cbn; intuition lia) eq_refl (Tasker 0 false [Tasker 1 true []]) (Tasker 1 true [])).
    - now left.
    - apply within_dep with (d := Tasker 1 true []); [now left|constructor].
    - now left. }
  discriminate C.
Qed.
Print Assumptions streaming_abandons_subqueries_refuted.

(** ... also when a subquery fails: 1 has made a batch, 9 fails, 1 stays open. *)
Example failed_sibling_stays_open :
  execute (small true) 5 10 [Tasker 0 false [Tasker 1 true []; Tasker 9 false []]] [1; 5] = Some ([1; 4], [Batched 1; Batched 9; Closed 9 false; Closed 0 false], [], Some 7).
Proof. reflexivity. Qed.

(** Without streaming: a query with a subquery that has a subquery, and a second statement; the order of C184 and C187. *)
Definition nested : tasker nat := Tasker 0 true [Tasker 1 true [Tasker 2 false []]; Tasker 3 false []].
Example off_run : execute (small false) 5 20 [nested; Tasker 4 false []] [1; 0; 2; 0; 0] =
  Some ([0; 0; 0; 0; 0], [Batched 2; Batched 2; Batched 2; Closed 2 true; Batched 1; Closed 1 true; Reduced 1; Batched 3; Closed 3 true; Batched 0; Batched 0; Closed 0 true; Reduced 0;
    Batched 4; Closed 4 true], [], None).
Proof. reflexivity. Qed.
Example off_turn : turn (small false) 20 nested [1; 0; 2; 0; 0] =
  Some ([0; 0; 0; 0; 0], [Batched 2; Batched 2; Batched 2; Closed 2 true; Batched 1; Closed 1 true; Reduced 1; Batched 3; Closed 3 true; Batched 0; Batched 0; Closed 0 true; Reduced 0], Finished)
  /\ NoDup (ids nested) /\ within nested (Tasker 1 true [Tasker 2 false []]) /\ subquery nested (Tasker 2 false []).
Proof.
  split; [reflexivity|]. split; [repeat constructor; cbn; intuition lia|].
  split; [apply within_dep with (d := Tasker 1 true [Tasker 2 false []]); [now left|constructor]|].
  exists (Tasker 1 true [Tasker 2 false []]). split; [now left|]. apply within_dep with (d := Tasker 2 false []); [now left|constructor].
Qed.
(** A failure two levels down closes the users, one after the other. *)
Example off_failure : turn (small false) 20 (Tasker 0 false [Tasker 1 true [Tasker 2 false []; Tasker 9 false []]]) [1; 0; 1] =
  Some ([1; 0; 0], [Batched 2; Batched 2; Closed 2 true; Batched 9; Closed 9 false; Closed 1 false; Closed 0 false], Failed 7).
Proof. reflexivity. Qed.
(** With streaming: two statements alternate, each with its subquery in front; after four turns each has made two batches. *)
Example on_run : execute (small true) 4 20 [Tasker 0 false [Tasker 2 false []]; Tasker 1 false []] [5; 5; 5] =
  Some ([3; 3; 3], [Batched 2; Batched 0; Batched 1; Batched 2; Batched 0; Batched 1], [Tasker 0 false [Tasker 2 false []]; Tasker 1 false []], None).
Proof. reflexivity. Qed.

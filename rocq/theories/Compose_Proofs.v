From Coq Require Import SpecFloat Permutation Sorting.Sorted.
From Verif Require Import Base PyVal Str_Model Str_Proofs Expr_Syntax Having_Spec Group_Syntax Whole_Syntax Winq_Syntax Winsel_Syntax Winsel_Spec Whole_Model Union_Model
  Joins_Syntax Joinsel_Syntax Joingrp_Syntax Full_Syntax Full_Model Full_Proofs Compose_Syntax Compose_Spec Compose_Model.
Open Scope nat_scope.
Notation mt := memory_table.

Lemma every_iff : forall A (P Q : A -> Prop) l, Forall (fun x => P x <-> Q x) l -> every P l <-> every Q l.
Proof. intros A P Q l F. induction F as [|x l H F IH]; cbn [every]; [reflexivity|]. rewrite H, IH. reflexivity. Qed.
Lemma each_iff : forall A B (P Q : A -> B -> Prop) l, Forall (fun x => forall y, P x y <-> Q x y) l -> forall m, each P l m <-> each Q l m.
Proof. intros A B P Q l F. induction F as [|x l H F IH]; intros [|y m]; cbn [each]; try reflexivity. rewrite H, IH. reflexivity. Qed.

(** Without expressions around window functions the schema is the select list. *)
Lemma core_schema_names : forall c sh, regular_core c -> core_schema c sh = core_names c sh.
Proof.
  intros [d star st|st|st|g|d g] sh R; try reflexivity. cbn [core_schema core_names regular_core] in *.
  induction R as [|[n i] l D R IH]; [reflexivity|]. cbn [flat_map map fst snd] in *. rewrite IH. destruct i; try reflexivity. destruct D.
Qed.
(** Only a star looks at the columns of the sources. *)
Lemma core_schema_shapes : forall c sh sh', (is_star c -> sh = sh') -> core_schema c sh = core_schema c sh'.
Proof. intros [d star st|st|st|g|d g] sh sh' H; try reflexivity. destruct star; [rewrite (H I); reflexivity|reflexivity]. Qed.
Lemma core_names_shapes : forall c sh sh', (is_star c -> sh = sh') -> core_names c sh = core_names c sh'.
Proof. intros [d star st|st|st|g|d g] sh sh' H; try reflexivity. destruct star; [rewrite (H I); reflexivity|reflexivity]. Qed.

Section Spec.
Variable answers : core -> list shape -> list rows -> rows -> Prop.
Variable acceptable : core -> list shape -> list rows -> Prop.
Hypothesis columns_ok : forall c sh ls out, acceptable c sh ls -> answers c sh ls out -> regular_core c -> NoDup (core_names c sh) /\ forall o, In o out -> map fst o = core_names c sh.
Notation means := (means answers).
Notation proper := (proper answers acceptable).

Definition one_means (tb : text -> rows) (s : source query) (l : rows) : Prop := match s with Table n _ => l = tb n | Sub q _ => means tb q l end.
Definition one_proper (tb : text -> rows) (s : source query) : Prop := match s with Table _ _ => True | Sub q _ => proper tb q end.
Definition one_reads (n : text) (s : source query) : Prop := match s with Table m _ => n = m | Sub q _ => reads n q end.
Lemma means_select : forall tb c from out, means tb (Select c from) out <-> exists ls, each (one_means tb) from ls /\ answers c (shapes from) ls out.
Proof. reflexivity. Qed.
Lemma reads_select : forall n c from, reads n (Select c from) <-> some (one_reads n) from.
Proof. reflexivity. Qed.
Lemma proper_select : forall tb c from, proper tb (Select c from) <->
  every (one_proper tb) from /\ (is_star c -> exists q a, from = [Sub q a] /\ regular q) /\ forall ls, each (one_means tb) from ls -> acceptable c (shapes from) ls.
Proof. reflexivity. Qed.
Lemma some_in : forall A (P : A -> Prop) x l, In x l -> P x -> some P l.
Proof. intros A P x l I H. apply some_Exists. apply Exists_exists. exists x. split; assumption. Qed.

(** Only the tables read matter. *)
Lemma means_iff : forall q tb tb', (forall n, reads n q -> tb n = tb' n) -> forall out, means tb q out <-> means tb' q out.
Proof.
  induction q as [c from IH|a b IHa IHb] using query_induction; intros tb tb' H out.
  - rewrite !means_select.
    assert (E : forall ls, each (one_means tb) from ls <-> each (one_means tb') from ls).
    { apply each_iff. apply Forall_forall. intros s Is l. rewrite Forall_forall in IH. specialize (IH s Is). destruct s as [n al|q al]; cbn [one_means].
      - rewrite (H n); [reflexivity|]. apply reads_select. apply (some_in _ _ (Table n al) _ Is). reflexivity.
      - apply IH. intros n R. apply H. apply reads_select. apply (some_in _ _ (Sub q al) _ Is). exact R. }
    split; intros (ls & S & A); exists ls; (split; [apply E; exact S|exact A]).
  - cbn [Compose_Spec.means]. split; intros (x & y & Mx & My & E); exists x, y; (split; [|split; [|exact E]]);
      (apply (IHa tb tb') || apply (IHb tb tb')); try assumption; intros n R; apply H; [left|right|left|right]; exact R.
Qed.
Lemma proper_ext : forall q tb tb', (forall n, reads n q -> tb n = tb' n) -> proper tb q -> proper tb' q.
Proof.
  intros q tb tb' H. revert q tb tb' H.
  induction q as [c from IH|a b IHa IHb] using query_induction; intros tb tb' H P.
  - rewrite proper_select in *. destruct P as (S & St & A). split; [|split; [exact St|]].
    + apply every_Forall in S. apply every_Forall. rewrite Forall_forall in *. intros s Is. specialize (S s Is). specialize (IH s Is). destruct s as [n al|q al]; [exact Logic.I|].
      cbn [one_proper] in *. apply (IH tb tb'); [|exact S]. intros n R. apply H. apply reads_select. apply (some_in _ _ (Sub q al) _ Is). exact R.
    + intros ls E. apply A. revert E. apply each_iff. apply Forall_forall. intros s Is l. destruct s as [n al|q al]; cbn [one_means].
      * rewrite (H n); [reflexivity|]. apply reads_select. apply (some_in _ _ (Table n al) _ Is). reflexivity.
      * apply means_iff. intros n R. apply H. apply reads_select. apply (some_in _ _ (Sub q al) _ Is). exact R.
  - cbn [Compose_Spec.proper] in *. destruct P as (Pa & Pb & Rest). split; [|split; [|exact Rest]].
    + apply (IHa tb tb'); [|exact Pa]. intros n R. apply H. left. exact R.
    + apply (IHb tb tb'); [|exact Pb]. intros n R. apply H. right. exact R.
Qed.

(** ** The columns of the result *)
Lemma each_some : forall A B (R : A -> B -> Prop) l x, In x l -> forall m, each R l m -> exists y, R x y.
Proof. intros A B R l x I m E. apply each_Forall2 in E. induction E as [|a b l m H E IH]; [destruct I|]. destruct I as [<-|I]; [exists b; exact H|exact (IH I)]. Qed.
Lemma means_names : forall q tb, proper tb q -> regular q -> forall out, means tb q out -> NoDup (query_names q) /\ forall o, In o out -> map fst o = query_names q.
Proof.
  induction q as [c from _|a b IHa IHb] using query_induction; intros tb P R out M.
  - rewrite means_select in M. rewrite proper_select in P. destruct M as (ls & S & A). destruct P as (_ & _ & P). exact (columns_ok _ _ _ _ (P ls S) A R).
  - cbn [Compose_Spec.means Compose_Spec.proper regular] in *. destruct M as (x & y & Mx & My & ->). destruct P as (Pa & Pb & Ra & Rb & E).
    destruct (IHa tb Pa Ra x Mx) as [ND Na]. destruct (IHb tb Pb Rb y My) as [_ Nb].
    split; [exact ND|]. intros o I. cbn [query_names]. apply in_app_or in I. destruct I as [I|I]; [apply Na; exact I|rewrite E; apply Nb; exact I].
Qed.
(** The schema of a regular query has its names; the shapes of the sources are right where a star looks at them. *)
Lemma schema_names : forall q tb, proper tb q -> regular q -> schema q = query_names q.
Proof.
  induction q as [c from IH|a b IHa IHb] using query_induction; intros tb P R; cbn [schema query_names].
  - rewrite proper_select in P. destruct P as (Ps & St & _). rewrite core_schema_names by exact R. apply core_names_shapes. intros SC. destruct (St SC) as (q & al & -> & Rq).
    inversion IH as [|? ? Hq _]; subst. destruct Ps as [Pq _]. cbn [one_proper] in Pq. cbn [map shape_by]. rewrite (Hq tb Pq Rq). reflexivity.
  - cbn [Compose_Spec.proper] in P. destruct P as (Pa & _ & Ra & _). exact (IHa tb Pa Ra).
Qed.
Lemma branches_same : forall q tb, proper tb q -> regular q -> forall l, In l (branch_names q) -> l = query_names q.
Proof.
  induction q as [c from _|a b IHa IHb] using query_induction; intros tb P R l I.
  - destruct I as [<-|[]]. exact (schema_names _ tb P R).
  - cbn [Compose_Spec.proper] in P. destruct P as (Pa & Pb & Ra & Rb & E). cbn [branch_names query_names] in *. apply in_app_or in I. destruct I as [I|I]; [exact (IHa tb Pa Ra l I)|rewrite E; exact (IHb tb Pb Rb l I)].
Qed.
Lemma union_task_same : forall a b tb out, proper tb (UnionAll a b) -> means tb (UnionAll a b) out -> union_task (UnionAll a b) [out] = Ok out.
Proof.
  intros a b tb out P M. assert (R : regular (UnionAll a b)) by (destruct P as (_ & _ & Ra & Rb & _); split; assumption).
  unfold union_task. assert (forallb (same_names (schema (UnionAll a b))) (branch_names (UnionAll a b)) = true) as ->.
  { apply forallb_forall. intros l I. rewrite (branches_same _ tb P R l I), (schema_names _ tb P R). unfold same_names. destruct (list_eq_dec _ _ _) as [_|N]; [reflexivity|destruct (N eq_refl)]. }
  rewrite (schema_names _ tb P R). cbn [concat]. rewrite app_nil_r.
  destruct (means_names _ tb P R out M) as [ND N]. f_equal. rewrite <- (map_id out) at 2. apply map_ext_in. intros o I. apply outer_same; [exact ND|exact (N o I)].
Qed.

(** ** Execution *)
Variable select : core -> list shape -> list rows -> res rows.
Hypothesis select_ok : forall c sh ls, acceptable c sh ls -> exists out, select c sh ls = Ok out /\ answers c sh ls out.
(** A SELECT without star does not look at the columns of its sources. *)
Hypothesis select_shapes : forall c from ls, ~ is_star c -> select c (map (shape_by schema) from) ls = select c (shapes from) ls.
Variable temp : nat -> text.
Variable pk : text.
Hypothesis temp_inj : forall i j, temp i = temp j -> i = j.
Notation whole := (whole temp).
Notation compile_branches := (compile_branches select temp).
Notation compile_query := (compile_query select temp).

Fixpoint runs (l : list task) (s : store) : res store := match l with [] => Ok s | d :: r => do s <- run d s; runs r s end.
Lemma run_eq : forall f i o deps s, run (Task f i o deps) s = do s1 <- runs deps s; do out <- f (map (fst s1) i); Ok (append o out s1).
Proof.
  intros f i o deps s. cbn [run].
  assert (G : forall l s, (fix go l s := match l with [] => Ok s | d :: r => do s <- run d s; go r s end) l s = runs l s).
  { induction l as [|d l IH]; intros s0; [reflexivity|]. cbn [runs]. destruct (run d s0) as [s1|]; [|reflexivity]. cbn [bind]. apply IH. }
  rewrite G. reflexivity.
Qed.
Lemma runs_app : forall a b s, runs (a ++ b) s = do s1 <- runs a s; runs b s1.
Proof. induction a as [|d a IH]; intros b s; [reflexivity|]. cbn [app runs]. destruct (run d s) as [s1|]; [|reflexivity]. cbn [bind]. apply IH. Qed.

Lemma mt_inj : forall a b, mt a = mt b -> a = b.
Proof. intros a b H. unfold memory_table in H. apply app_inv_head in H. exact H. Qed.
Definition fresh (k : nat) (tb : text -> rows) : Prop := forall j, k <= j -> tb (mt (temp j)) = [].
Definition no_temp (q : query) : Prop := forall n, reads n q -> forall j, n <> mt (temp j).
Definition outside_ (k k' : nat) (n : text) : Prop := forall j, k <= j < k' -> n <> mt (temp j).

(** The task whose output is still to be given. *)
Definition task_ok (c : task) (k k' : nat) (q : query) : Prop :=
  exists f i d, c = Task f i None d /\ forall s, fresh k (fst s) -> proper (fst s) q ->
    exists out s1, runs d s = Ok s1 /\ f (map (fst s1) i) = Ok out /\ means (fst s) q out /\ snd s1 = snd s /\ forall n, outside_ k k' n -> fst s1 n = fst s n.
Definition list_ok (cs : list task) (k k' : nat) (q : query) : Prop :=
  forall j s, j < k -> fresh k (fst s) -> proper (fst s) q -> let o := mt (temp j) in
    exists out s1, runs (map (set_output o) cs) s = Ok s1 /\ means (fst s) q out /\ snd s1 = snd s /\ fst s1 o = fst s o ++ out /\
      forall n, n <> o -> outside_ k k' n -> fst s1 n = fst s n.
Definition branches_ok (q : query) : Prop := forall k cs k', compile_branches q k = (cs, k') -> k <= k' /\ list_ok cs k k' q /\
  forall c from, q = Select c from -> exists c, cs = [c] /\ task_ok c k k' q.
(** The inputs and dependencies of the sources of a SELECT. *)
Definition sources_ok (from : list (source query)) : Prop := forall k i d k', compile_sources temp compile_branches from k = (i, d, k') -> k <= k' /\
  forall s, fresh k (fst s) -> every (one_proper (fst s)) from ->
    exists s1, runs d s = Ok s1 /\ each (one_means (fst s)) from (map (fst s1) i) /\ snd s1 = snd s /\ forall n, outside_ k k' n -> fst s1 n = fst s n.

Lemma single : forall c k k' q, task_ok c k k' q -> list_ok [c] k k' q.
Proof.
  intros c k k' q (f & i & d & -> & H) j s Hj F P o. assert (No : outside_ k k' o) by (intros j' Hj' E; apply mt_inj, temp_inj in E; lia). destruct (H s F P) as (out & s1 & R & E & M & S & U). exists out, (append (Some o) out s1).
  cbn [map set_output runs]. rewrite run_eq, R. cbn [bind]. rewrite E. cbn [bind]. split; [reflexivity|]. split; [exact M|]. split; [exact S|]. unfold append. cbn [fst].
  split; [rewrite text_eqb_refl, U by exact No; reflexivity|]. intros n N On. assert (text_eqb n o = false) as -> by (apply text_eqb_neq; exact N). apply U. exact On.
Qed.
(** A whole query from its branches. *)
Lemma whole_ok : forall q k cs k', S k <= k' -> list_ok cs (S k) k' q -> (forall c from, q = Select c from -> exists c, cs = [c] /\ task_ok c (S k) k' q) ->
  task_ok (whole q k cs) k k' q.
Proof.
  intros q k cs k' Lk L Sel. destruct q as [c from|a b].
  - destruct (Sel c from eq_refl) as (tk & -> & f & i & ds & -> & H). exists f, i, ds. split; [reflexivity|]. intros s F P.
    destruct (H s) as (out & s1 & R & E & M & S & U); [intros j Hj; apply F; lia|exact P|]. exists out, s1. repeat (split; [assumption|]). intros n On. apply U. intros j Hj. apply On. lia.
  - exists (union_task (UnionAll a b)), [mt (temp k)], (map (set_output (mt (temp k))) cs). split; [reflexivity|]. intros s F P.
    destruct (L k s) as (out & s1 & R & M & S & Eo & U); [lia|intros j Hj; apply F; lia|exact P|].
    exists out, s1. split; [exact R|]. cbn [map]. rewrite Eo, F by lia. cbn [app]. split; [eapply union_task_same; eassumption|]. split; [exact M|]. split; [exact S|].
    intros n On. apply U; [apply On; lia|]. intros j Hj. apply On. lia.
Qed.

Lemma sources_compiled : forall from, Forall (fun s => match s with Table _ _ => True | Sub q _ => no_temp q -> branches_ok q end) from ->
  (forall n, some (one_reads n) from -> forall j, n <> mt (temp j)) -> sources_ok from.
Proof.
  intros from F. induction F as [|s from Hs F IH]; intros NT k i d k' C; cbn [compile_sources] in C.
  - injection C as <- <- <-. split; [lia|]. intros s Fr _. exists s. split; [reflexivity|]. split; [exact Logic.I|]. split; reflexivity.
  - specialize (IH (fun n R => NT n (or_intror R))). destruct s as [n al|q al].
    + destruct (compile_sources temp compile_branches from k) as [[i1 d1] k1] eqn:C1. injection C as <- <- <-. destruct (IH _ _ _ _ C1) as (L & W). split; [exact L|]. intros s Fr [_ P].
      destruct (W s Fr P) as (s1 & R & E & S & U). exists s1. split; [exact R|]. split; [|split; [exact S|exact U]]. cbn [map each]. split; [|exact E]. cbn [one_means].
      apply U. intros j _. apply NT. left. reflexivity.
    + destruct (compile_branches q (Datatypes.S (Datatypes.S k))) as [cq k1] eqn:Cq. destruct (compile_sources temp compile_branches from k1) as [[i1 d1] k2] eqn:C1. injection C as <- <- <-.
      assert (Nq : no_temp q) by (intros n R; apply NT; left; exact R). destruct (Hs Nq _ _ _ Cq) as (L1 & Lq & Sq). destruct (IH _ _ _ _ C1) as (L2 & W). split; [lia|].
      destruct (whole_ok q (Datatypes.S k) cq k1 L1 Lq Sq) as (f & ii & ds & Ew & Wq). intros s Fr [Pq P]. cbn [one_proper] in Pq.
      destruct (Wq s) as (l & s1 & R & E & M & S & U); [intros j Hj; apply Fr; lia|exact Pq|]. set (s2 := append (Some (mt (temp k))) l s1).
      assert (A2 : forall n, n <> mt (temp k) -> outside_ (Datatypes.S k) k1 n -> fst s2 n = fst s n).
      { intros n Nn On. unfold s2, append. cbn [fst]. assert (text_eqb n (mt (temp k)) = false) as -> by (apply text_eqb_neq; exact Nn). apply U. exact On. }
      assert (T2 : fst s2 (mt (temp k)) = l).
      { unfold s2, append. cbn [fst]. rewrite text_eqb_refl. rewrite U by (intros j Hj Z; apply mt_inj, temp_inj in Z; lia). rewrite Fr by lia. reflexivity. }
      assert (Rd : forall x, In x from -> forall n, one_reads n x -> fst s n = fst s2 n).
      { intros x Ix n R'. assert (Nn : forall j, n <> mt (temp j)) by (apply NT; right; eapply some_in; eassumption). symmetry. apply A2; [apply Nn|]. intros j _. apply Nn. }
      destruct (W s2) as (s3 & R3 & E3 & S3 & U3).
      * intros j Hj. rewrite A2; [apply Fr; lia| |]; [intros Z; apply mt_inj, temp_inj in Z; lia|intros j' Hj' Z; apply mt_inj, temp_inj in Z; lia].
      * apply every_Forall in P. apply every_Forall. rewrite Forall_forall in *. intros x Ix. specialize (P x Ix). destruct x as [n1 al1|q1 al1]; [exact Logic.I|].
        cbn [one_proper] in *. apply (proper_ext q1 (fst s)); [|exact P]. intros n R'. exact (Rd _ Ix n R').
      * exists s3. rewrite Ew. cbn [set_output runs]. rewrite run_eq, R. cbn [bind]. rewrite E. cbn [bind]. split; [exact R3|]. split; [|split; [rewrite S3; exact S|]].
        -- cbn [map each]. split.
           ++ cbn [one_means]. rewrite U3 by (intros j Hj Z; apply mt_inj, temp_inj in Z; lia). rewrite T2. exact M.
           ++ revert E3. apply each_iff. apply Forall_forall. intros x Ix y. destruct x as [n1 al1|q1 al1]; cbn [one_means].
              ** rewrite (Rd _ Ix n1 eq_refl). reflexivity.
              ** apply means_iff. intros n R'. exact (Rd _ Ix n R').
        -- intros n On. rewrite U3 by (intros j Hj; apply On; lia). apply A2; [apply On; lia|]. intros j Hj. apply On. lia.
Qed.
Lemma shapes_seen : forall c from tb ls, proper tb (Select c from) -> select c (map (shape_by schema) from) ls = select c (shapes from) ls.
Proof.
  intros c from tb ls P. assert (D : is_star c \/ ~ is_star c) by (destruct c as [d [|] st|st|st|g|d g]; cbn [is_star]; tauto). destruct D as [SC|NS]; [|exact (select_shapes c from ls NS)].
  rewrite proper_select in P. destruct P as (Ps & St & _). destruct (St SC) as (q & al & -> & Rq). destruct Ps as [Pq _]. cbn [one_proper] in Pq. unfold shapes. cbn [map shape_by].
  rewrite (schema_names q tb Pq Rq). reflexivity.
Qed.

Lemma branches_compiled : forall q, no_temp q -> branches_ok q.
Proof.
  induction q as [c from IH|a b IHa IHb] using query_induction; intros NT k cs k' C; cbn [Compose_Model.compile_branches] in C.
  - destruct (compile_sources temp compile_branches from k) as [[i d] k1] eqn:C1. injection C as <- <-.
    destruct (sources_compiled from IH NT _ _ _ _ C1) as (L & W). split; [exact L|].
    assert (T : task_ok (Task (select c (map (shape_by schema) from)) i None d) k k1 (Select c from)).
    { eexists _, _, _. split; [reflexivity|]. intros s Fr P. pose proof P as P'. rewrite proper_select in P'. destruct P' as (Ps & _ & A). destruct (W s Fr Ps) as (s1 & R & E & S & U).
      destruct (select_ok c (shapes from) _ (A _ E)) as (out & Ro & An). exists out, s1. split; [exact R|]. split; [rewrite (shapes_seen c from (fst s) _ P); exact Ro|].
      split; [rewrite means_select; eexists; split; [exact E|exact An]|]. split; [exact S|exact U]. }
    split; [apply single; exact T|]. intros ? ? _. eexists. split; [reflexivity|exact T].
  - destruct (compile_branches a k) as [ca k1] eqn:Ca. destruct (compile_branches b k1) as [cb k2] eqn:Cb. injection C as <- <-.
    assert (NTa : no_temp a) by (intros n R; apply NT; left; exact R). assert (NTb : no_temp b) by (intros n R; apply NT; right; exact R).
    destruct (IHa NTa _ _ _ Ca) as (L1 & La & _). destruct (IHb NTb _ _ _ Cb) as (L2 & Lb & _). split; [lia|]. split; [|discriminate].
    intros j s Hj F P o. cbn [Compose_Spec.proper] in P. destruct P as (Pa & Pb & E).
    destruct (La j s Hj F Pa) as (x & s1 & R1 & M1 & S1 & O1 & U1). fold o in R1, O1, U1.
    assert (Same : forall n, reads n b -> fst s n = fst s1 n).
    { intros n R. symmetry. apply U1; [exact (NTb n R j)|]. intros j' _. exact (NTb n R j'). }
    destruct (Lb j s1) as (y & s2 & R2 & M2 & S2 & O2 & U2); [lia| |exact (proper_ext b _ _ Same Pb)|].
    { intros j' Hj'. rewrite U1; [apply F; lia| |]; [intros Z; apply mt_inj, temp_inj in Z; lia|intros i Hi Z; apply mt_inj, temp_inj in Z; lia]. }
    fold o in R2, O2, U2. exists (x ++ y), s2. rewrite map_app, runs_app, R1. cbn [bind]. split; [exact R2|]. split.
    { cbn [Compose_Spec.means]. exists x, y. split; [exact M1|]. split; [|reflexivity]. apply (means_iff b (fst s) (fst s1)); [|exact M2]. exact Same. }
    split; [rewrite S2; exact S1|]. split; [rewrite O2, O1, app_assoc; reflexivity|]. intros n N On. rewrite U2; [apply U1|exact N|]; [exact N| |]; intros i Hi; apply On; lia.
Qed.
Lemma query_compiled : forall q k c k', no_temp q -> compile_query q k = (c, k') -> k <= k' /\ task_ok c k k' q.
Proof.
  intros q k c k' NT C. unfold Compose_Model.compile_query in C. destruct (compile_branches q (S k)) as [cs k1] eqn:E. injection C as <- <-.
  destruct (branches_compiled q NT _ _ _ E) as (L & Lo & Se). split; [lia|]. apply whole_ok; assumption.
Qed.

(** ** WITH *)
(** No table read in the query, and no temporary one, has an input text that begins with the name. *)
Definition clash_free (name : text) (q : query) : Prop :=
  (forall n, reads n q -> ~ exists x, n ++ t "::" ++ pk = mt name ++ x) /\
  (forall j, ~ exists x, mt (temp j) ++ t "::" ++ pk = mt name ++ x) /\ (~ exists x, t "--.--::" ++ pk = mt name ++ x).
Definition known_input (q : query) (c : task) : Prop :=
  match c with Task _ (n :: _) _ _ => reads n q \/ exists j, n = mt (temp j) | Task _ [] _ _ => True end.
Lemma fix_known : forall name q c, clash_free name q -> known_input q c -> fix_dependency pk (mt name) c = c.
Proof.
  intros name q [f [|i r] [o|] d] (C1 & C2 & C3) K; cbn [fix_dependency]; try reflexivity.
  - destruct (prefixb _ _) eqn:P; [|reflexivity]. exfalso. apply prefixb_spec in P. destruct P as [x E]. rewrite <- app_assoc in E.
    change (t "&.--.--::" ++ pk) with (t "&." ++ (t "--.--::" ++ pk)) in E. apply app_inv_head in E. apply C3. exists x. exact E.
  - destruct (prefixb _ _) eqn:P; [|reflexivity]. exfalso. apply prefixb_spec in P. destruct P as [x E]. rewrite <- app_assoc in E. apply app_inv_head in E.
    destruct K as [R|(j & ->)]; [apply (C1 i R)|apply (C2 j)]; exists x; exact E.
Qed.
Lemma known_weaken : forall q q' c, (forall n, reads n q -> reads n q') -> known_input q c -> known_input q' c.
Proof. intros q q' [f [|i r] o d] H K; [exact Logic.I|]. destruct K as [K|K]; [left; exact (H i K)|right; exact K]. Qed.
Lemma known_set : forall q o c, known_input q c -> known_input q (set_output o c).
Proof. intros q o [f [|i r] oo d] H; exact H. Qed.
Lemma branches_known : forall q k cs k', compile_branches q k = (cs, k') -> Forall (known_input q) cs.
Proof.
  induction q as [c from _|a b IHa IHb] using query_induction; intros k cs k' C; cbn [Compose_Model.compile_branches] in C.
  - destruct (compile_sources temp compile_branches from k) as [[i d] k1] eqn:C1. injection C as <- <-. constructor; [|constructor]. destruct from as [|[n al|q al] from]; cbn [compile_sources] in C1.
    + injection C1 as <- <- <-. exact Logic.I.
    + destruct (compile_sources temp compile_branches from k) as [[i1 d1] k2]. injection C1 as <- <- <-. left. apply reads_select. left. reflexivity.
    + destruct (compile_branches q (S (S k))) as [cq k2]. destruct (compile_sources temp compile_branches from k2) as [[i1 d1] k3]. injection C1 as <- <- <-. right. exists k. reflexivity.
  - destruct (compile_branches a k) as [ca k1] eqn:Ca. destruct (compile_branches b k1) as [cb k2] eqn:Cb. injection C as <- <-. apply Forall_app. split.
    + eapply Forall_impl; [|exact (IHa _ _ _ Ca)]. intros x. apply known_weaken. intros n R. left. exact R.
    + eapply Forall_impl; [|exact (IHb _ _ _ Cb)]. intros x. apply known_weaken. intros n R. right. exact R.
Qed.
Lemma sources_known : forall c from k i d k', compile_sources temp compile_branches from k = (i, d, k') -> forall from0, (forall s, In s from -> In s from0) -> Forall (known_input (Select c from0)) d.
Proof.
  intros c from. induction from as [|[n al|q al] from IH]; intros k i d k' C from0 Inc; cbn [compile_sources] in C.
  - injection C as <- <- <-. constructor.
  - destruct (compile_sources temp compile_branches from k) as [[i1 d1] k1] eqn:C1. injection C as <- <- <-. apply (IH _ _ _ _ C1). intros s I. apply Inc. right. exact I.
  - destruct (compile_branches q (S (S k))) as [cq k1] eqn:Cq. destruct (compile_sources temp compile_branches from k1) as [[i1 d1] k2] eqn:C1. injection C as <- <- <-.
    constructor; [|apply (IH _ _ _ _ C1); intros s I; apply Inc; right; exact I]. apply known_set.
    assert (Rq : forall n, reads n q -> reads n (Select c from0)) by (intros n R; apply reads_select; apply (some_in _ _ (Sub q al)); [apply Inc; left; reflexivity|exact R]).
    destruct q as [c' from'|a b].
    + pose proof (branches_known _ _ _ _ Cq) as B. cbn [Compose_Model.whole]. destruct cq as [|x cq]; [exact Logic.I|]. inversion B; subst. eapply known_weaken; eassumption.
    + right. eexists. reflexivity.
Qed.
Lemma deps_known : forall q k f i o d k', compile_query q k = (Task f i o d, k') -> Forall (known_input q) d.
Proof.
  intros q k f i o d k' C. unfold Compose_Model.compile_query in C. destruct (compile_branches q (S k)) as [cs k1] eqn:E. pose proof (branches_known q _ _ _ E) as B.
  destruct q as [c from|a b].
  - cbn [Compose_Model.compile_branches] in E. destruct (compile_sources temp compile_branches from (S k)) as [[i1 d1] k2] eqn:C1. injection E as <- <-. injection C as <- <- <- <- <-.
    apply (sources_known c from _ _ _ _ C1). intros s I. exact I.
  - injection C as <- <- <- <- <-. apply Forall_forall. intros c I. apply in_map_iff in I as (c' & <- & I). apply known_set. rewrite Forall_forall in B. exact (B c' I).
Qed.

Definition agree (s tb : text -> rows) : Prop := forall n, (forall j, n <> mt (temp j)) -> s n = tb n.
Lemma with_compiled : forall ctes q, (forall name q', In (name, q') ctes -> no_temp q' /\ clash_free name q' /\ forall j, name <> temp j) -> NoDup (map fst ctes) ->
  forall k cs k', compile_with select temp pk ctes k = (cs, k') ->
  k <= k' /\ forall s tb, fresh k (fst s) -> agree (fst s) tb -> (forall name, In name (map fst ctes) -> tb (mt name) = []) ->
    with_proper answers acceptable tb ctes q ->
    exists s1 tb1, runs cs s = Ok s1 /\ snd s1 = snd s /\ fresh k' (fst s1) /\ agree (fst s1) tb1 /\ proper tb1 q /\
      forall out, means tb1 q out -> with_means answers tb ctes q out.
Proof.
  intros ctes q. induction ctes as [|[name q'] ctes IH]; intros H ND k cs k' C; cbn [compile_with] in C.
  - injection C as <- <-. split; [lia|]. intros s tb F A _ P. exists s, tb. split; [reflexivity|]. split; [reflexivity|]. split; [exact F|]. split; [exact A|]. split; [exact P|]. exact (fun out M => M).
  - destruct (compile_query q' k) as [[f i o d] k1] eqn:Cq. destruct (compile_with select temp pk ctes k1) as [cs' k2] eqn:Cw. injection C as <- <-.
    destruct (H name q' (or_introl eq_refl)) as (NT & CF & NN). inversion ND as [|? ? N1 N2]; subst.
    destruct (query_compiled q' k _ k1 NT Cq) as (L1 & f' & i' & d' & E & T). injection E as <- <- -> <-.
    destruct (IH (fun m x I => H m x (or_intror I)) N2 k1 cs' k2 Cw) as (L2 & W). split; [lia|].
    intros s tb F A Em P. cbn [with_proper] in P. destruct P as [Pq Pr].
    assert (Rd : forall n, reads n q' -> tb n = fst s n) by (intros n R; symmetry; apply A; exact (NT n R)).
    destruct (T s F (proper_ext q' _ _ Rd Pq)) as (out & s1 & R & Ef & M & S & U).
    assert (M' : means tb q' out) by (apply (means_iff q' tb (fst s)); [exact Rd|exact M]).
    assert (FD : map (fix_dependency pk (mt name)) d = d).
    { rewrite <- (map_id d) at 2. apply map_ext_in. intros c I. apply (fix_known name q'); [exact CF|]. pose proof (deps_known q' k _ _ _ _ _ Cq) as K. rewrite Forall_forall in K. exact (K c I). }
    rewrite FD. assert (Nm : forall j, mt name <> mt (temp j)) by (intros j Z; apply mt_inj in Z; exact (NN j Z)).
    destruct (W (append (Some (mt name)) out s1) (define tb name out)) as (s2 & tb2 & R2 & S2 & F2 & A2 & P2 & M2).
    + intros j Hj. unfold append. cbn [fst]. assert (text_eqb (mt (temp j)) (mt name) = false) as -> by (apply text_eqb_neq; intros Z; symmetry in Z; exact (Nm j Z)).
      rewrite U; [apply F; lia|]. intros j' Hj' Z. apply mt_inj, temp_inj in Z. lia.
    + intros n Hn. unfold append, define. cbn [fst]. rewrite U by (intros j _; apply Hn). rewrite (A n Hn). destruct (text_eqb n (mt name)) eqn:E; [|reflexivity].
      apply text_eqb_spec in E. subst n. rewrite Em by (left; reflexivity). reflexivity.
    + intros m I. unfold define. destruct (text_eqb (mt m) (mt name)) eqn:E; [apply text_eqb_spec, mt_inj in E; subst m; destruct (N1 I)|]. apply Em. right. exact I.
    + exact (Pr out M').
    + exists s2, tb2. cbn [runs]. rewrite run_eq, R. cbn [bind]. rewrite Ef. cbn [bind]. split; [exact R2|]. split; [rewrite S2; exact S|]. split; [exact F2|]. split; [exact A2|]. split; [exact P2|].
      intros x Mx. cbn [with_means]. exists out. split; [exact M'|]. exact (M2 x Mx).
Qed.
Lemma statement_executes : forall ctes q tables, (forall name q', In (name, q') ctes -> no_temp q' /\ clash_free name q' /\ forall j, name <> temp j) -> NoDup (map fst ctes) ->
  no_temp q -> fresh 0 tables -> (forall name, In name (map fst ctes) -> tables (mt name) = []) -> with_proper answers acceptable tables ctes q ->
  exists out, execute select temp pk ctes q tables = Ok out /\ with_means answers tables ctes q out.
Proof.
  intros ctes q tables H ND NT F Em P. unfold execute, compile_statement. destruct (compile_with select temp pk ctes 0) as [cs k] eqn:Cw.
  destruct (compile_query q k) as [[f i o d] k'] eqn:Cq. destruct (with_compiled ctes q H ND 0 cs k Cw) as (_ & W).
  destruct (W (tables, []) tables F (fun n _ => eq_refl) Em P) as (s1 & tb1 & R1 & S1 & F1 & A1 & P1 & M1).
  destruct (query_compiled q k _ k' NT Cq) as (_ & f' & i' & d' & E & T). injection E as <- <- -> <-.
  assert (Rd : forall n, reads n q -> tb1 n = fst s1 n) by (intros n R; symmetry; apply A1; exact (NT n R)).
  destruct (T s1 F1 (proper_ext q _ _ Rd P1)) as (out & s2 & R & Ef & M & S & U).
  exists out. rewrite run_eq, runs_app, R1. cbn [bind]. rewrite R. cbn [bind]. rewrite Ef. cbn [bind append snd]. rewrite S, S1. cbn [snd app]. split; [reflexivity|].
  apply M1. apply (means_iff q tb1 (fst s1)); [exact Rd|exact M].
Qed.
End Spec.

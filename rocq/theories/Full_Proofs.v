From Coq Require Import SpecFloat Permutation Sorting.Sorted.
From Verif Require Import Base PyVal Str_Model Str_Proofs Utils_Model Calc_Model Expr_Syntax Expr_Model Expr_Spec Expr_Proofs Expr_Props Having_Model Having_Spec Reduce_Spec Group_Syntax Group_Model Group_Spec Group_Proofs Group_Props
  Inner_Syntax Inner_Model Inner_Spec Select_Model Select_Spec Select_Props Whole_Syntax Cast_Syntax Whole_Model Whole_Spec Collapse_Model Collapse_Spec Collapse_Props
  Alias_Model Alias_Spec Alias_Props Union_Model Full_Syntax Full_Spec Full_Model.
Open Scope nat_scope.
Notation mt := memory_table.

Section Spec.
Variable tt : text -> bool.
Variable fn : text -> list val -> val.
Variable str_of : val -> text.
Variable leK : val -> val -> bool.
Variable same : list val -> list val -> bool.
Variable reserved : text -> Prop.
Notation means := (means tt fn str_of leK same).
Notation proper := (proper tt fn str_of leK same reserved).

(** Only the tables read matter. *)
Lemma means_ext : forall q tb tb', (forall n, reads n q -> tb n = tb' n) -> forall out, means tb q out -> means tb' q out.
Proof.
  induction q as [d star st from IH|a b IHa IHb] using query_induction; intros tb tb' H out M; cbn [Full_Spec.means] in *.
  - destruct M as (l & S & A). exists l. split; [|exact A]. destruct from as [|n al|q al]; [exact S|rewrite S; apply H; reflexivity|]. exact (IH q al eq_refl tb tb' H l S).
  - destruct M as (x & y & Mx & My & E). exists x, y. split; [|split; [|exact E]].
    + apply (IHa tb tb'); [|exact Mx]. intros n R. apply H. left. exact R.
    + apply (IHb tb tb'); [|exact My]. intros n R. apply H. right. exact R.
Qed.
Lemma proper_ext : forall q tb tb', (forall n, reads n q -> tb n = tb' n) -> proper tb q -> proper tb' q.
Proof.
  induction q as [d star st from IH|a b IHa IHb] using query_induction; intros tb tb' H P; cbn [Full_Spec.proper] in *.
  - destruct P as [S A]. split.
    + destruct from as [|n al|q al]; [exact S|exact S|]. exact (IH q al eq_refl tb tb' H S).
    + intros l Sl. apply A. destruct from as [|n al|q al]; [exact Sl|rewrite Sl; symmetry; apply H; reflexivity|]. apply (means_ext q tb' tb); [|exact Sl]. intros n R. symmetry. exact (H n R).
  - destruct P as (Pa & Pb & E). split; [|split; [|exact E]].
    + apply (IHa tb tb'); [|exact Pa]. intros n R. apply H. left. exact R.
    + apply (IHb tb tb'); [|exact Pb]. intros n R. apply H. right. exact R.
Qed.

(** ** The columns of the result *)
Lemma acceptable_nodup : forall a d st table, acceptable tt fn same reserved a d st table -> NoDup (map fst (st_items st)).
Proof. intros a d st table A. destruct A as [? ? P|? ? P ? ?|? ? P ?|? ? P ?|? ? ? ? P|? ? ? ? P|? ? ? ? ? P|? ? ? ? ? P]; try (apply P). Qed.
Lemma Forall2_names : forall (R : text * expr -> text * val -> Prop) items o, Forall2 (fun ne nv => fst nv = fst ne /\ R ne nv) items o -> map fst o = map fst items.
Proof. intros R items o F. induction F as [|x y items o [E _] F IH]; [reflexivity|]. cbn [map]. rewrite E, IH. reflexivity. Qed.
Lemma paged_incl : forall A limit offset (l : list A) x, In x (paged limit offset l) -> In x l.
Proof.
  intros A limit offset l x I. unfold paged in I. assert (S : forall n (m : list A), In x (skipn n m) -> In x m).
  { intros n. induction n as [|n IH]; intros [|y m] J; try exact J. right. exact (IH m J). }
  assert (F : forall n (m : list A), In x (firstn n m) -> In x m).
  { intros n. induction n as [|n IH]; intros [|y m] J; cbn in J; try destruct J as [J|J]; try (destruct J; fail); [left; exact J|right; exact (IH m J)]. }
  destruct offset as [o|]; destruct limit as [n|]; try exact I; eauto.
Qed.
Lemma Forall2_In_r : forall A B (R : A -> B -> Prop) l m y, Forall2 R l m -> In y m -> exists x, In x l /\ R x y.
Proof. intros A B R l m y F. induction F as [|a b l m H F IH]; intros I; [destruct I|]. destruct I as [<-|I]; [exists a; split; [left; reflexivity|exact H]|]. destruct (IH I) as (x & Ix & Hx). exists x. split; [right; exact Ix|exact Hx]. Qed.
Lemma answers_names : forall d st table out, answers tt fn str_of leK same d st table out -> forall o, In o out -> map fst o = map fst (st_items st).
Proof.
  intros d st table out A o I. destruct A as [st table out _ _ (rows & _ & ->)|st table out _ (rows & grows & sorted & _ & GR & PS & _ & _ & ->)|st table out _ _ (rows & grows & sorted & _ & GR & PS & _ & _ & ->)|st table out _ _ (rows & grows & sorted & _ & GR & PS & _ & _ & ->)];
    apply paged_incl in I.
  - apply filter_In in I. destruct I as [I _]. apply in_map_iff in I as (r & <- & _). unfold result_row. rewrite map_map. reflexivity.
  - eapply Permutation_in in I; [|symmetry; exact PS]. apply filter_In in I. destruct I as [I _]. destruct (Forall2_In_r _ _ _ _ _ _ GR I) as (k & _ & r & _ & F). eapply Forall2_names; exact F.
  - eapply Permutation_in in I; [|symmetry; exact PS]. apply filter_In in I. destruct I as [I _]. destruct (Forall2_In_r _ _ _ _ _ _ GR I) as (k & _ & F).
    exact (Forall2_names (fun ne nv => exists r, In r (members same (map (fun r => (bare_key tt fn st r, r)) rows) k) /\ snd nv = sem tt fn r (snd ne)) _ _ F).
  - eapply Permutation_in in I; [|symmetry; exact PS]. apply filter_In in I. destruct I as [I _]. destruct (Forall2_In_r _ _ _ _ _ _ GR I) as (k & _ & F).
    exact (Forall2_names (fun ne nv => exists r, In r (members same (map (fun r => (item_values tt fn st r, r)) rows) k) /\ snd nv = sem tt fn r (snd ne)) _ _ F).
Qed.
Lemma starred_names : forall star from st d, map fst (st_items (starred star from st)) = query_names (Select d star st from).
Proof.
  intros star from st d. unfold starred, with_items, source_names. cbn [st_items query_names]. rewrite map_app. f_equal. destruct star; [|reflexivity].
  destruct from as [|n a|q a]; [reflexivity|reflexivity|]. rewrite map_map. cbn [fst]. apply map_id.
Qed.
Lemma means_names : forall q tb, proper tb q -> forall out, means tb q out -> NoDup (query_names q) /\ forall o, In o out -> map fst o = query_names q.
Proof.
  induction q as [d star st from IH|a b IHa IHb] using query_induction; intros tb P out M; cbn [Full_Spec.means Full_Spec.proper] in *.
  - destruct M as (l & S & A). destruct P as [_ P]. specialize (P l S). rewrite <- (starred_names star from st d). split; [eapply acceptable_nodup; exact P|]. eapply answers_names; exact A.
  - destruct M as (x & y & Mx & My & ->). destruct P as (Pa & Pb & E). destruct (IHa tb Pa x Mx) as [ND Na]. destruct (IHb tb Pb y My) as [_ Nb].
    split; [exact ND|]. intros o I. cbn [query_names]. apply in_app_or in I. destruct I as [I|I]; [apply Na; exact I|rewrite E; apply Nb; exact I].
Qed.
Lemma branches_same : forall q tb, proper tb q -> forall l, In l (branch_names q) -> l = query_names q.
Proof.
  induction q as [d star st from IH|a b IHa IHb] using query_induction; intros tb P l I.
  - destruct I as [<-|[]]. reflexivity.
  - cbn [Full_Spec.proper] in P. destruct P as (Pa & Pb & E). cbn [branch_names query_names] in *. apply in_app_or in I. destruct I as [I|I]; [exact (IHa tb Pa l I)|rewrite E; exact (IHb tb Pb l I)].
Qed.
Lemma outer_same : forall names o, NoDup names -> map fst o = names -> outer_row val VNone (Some names) o = o.
Proof.
  intros names o ND <-. unfold outer_row. assert (H : forall n v, In (n, v) o -> assoc n o = Some v) by (intros n v I; apply assoc_nodup; assumption).
  clear ND. assert (G : forall l, incl l o -> map (fun n => (n, match assoc n o with Some v => v | None => VNone end)) (map fst l) = l).
  { induction l as [|[n v] l IH]; intros I; [reflexivity|]. cbn [map fst]. rewrite (H n v) by (apply I; left; reflexivity). rewrite IH by (intros x Ix; apply I; right; exact Ix). reflexivity. }
  apply G. apply incl_refl.
Qed.
Lemma union_task_same : forall q tb out, proper tb q -> means tb q out -> union_task q out = Ok out.
Proof.
  intros q tb out P M. unfold union_task. assert (forallb (same_names (query_names q)) (branch_names q) = true) as ->.
  { apply forallb_forall. intros l I. rewrite (branches_same q tb P l I). unfold same_names. destruct (list_eq_dec _ _ _) as [_|N]; [reflexivity|destruct (N eq_refl)]. }
  destruct (means_names q tb P out M) as [ND N]. f_equal. rewrite <- (map_id out) at 2. apply map_ext_in. intros o I. apply outer_same; [exact ND|exact (N o I)].
Qed.
End Spec.

Section Full.
Variable frepr : spec_float -> text.
Variable ident : val -> val -> bool.
Variable ext : text -> option (list val -> val).
Variable lib : text -> list val -> val.
Variable tt : text -> bool.
Hypothesis no_neg : ext (t "neg") = None.
Variable str_of : val -> text.
Variable primary : option text.
Variable pick pick1 : list row -> row.
Variable nested : text -> row -> val.
Variable raw : list (text * state) -> val.
Variable state_name : path -> text.
Variable other : expr -> res hcol.
Variable rematch : text -> val -> bool.
Variable leK : val -> val -> bool.
Hypothesis TK : total_preorder leK.
Hypothesis EQ : forall a b, pyeq a b = true -> leK a b = true /\ leK b a = true.
Hypothesis HP : forall rs, rs <> [] -> In (pick rs) rs.
Hypothesis HP1 : forall rs, rs <> [] -> In (pick1 rs) rs.
Hypothesis INJ : forall p q, state_name p = state_name q -> p = q.
Variable temp : nat -> text.
Variable pk : text.
Hypothesis temp_inj : forall i j, temp i = temp j -> i = j.
Let fn := sql_fn frepr ident ext lib.
Let reserved := fun n => exists p, n = state_name p.
Notation means := (means tt fn str_of leK equal_keys).
Notation proper := (proper tt fn str_of leK equal_keys reserved).
Notation select_task := (select_task frepr ident ext lib str_of primary pick pick1 nested raw state_name other rematch leK).
Notation compile_branches := (compile_branches frepr ident ext lib str_of primary pick pick1 nested raw state_name other rematch leK temp).
Notation compile_query := (compile_query frepr ident ext lib str_of primary pick pick1 nested raw state_name other rematch leK temp).
Notation whole := (whole temp).

Fixpoint runs (l : list task) (s : store) : res store := match l with [] => Ok s | d :: r => do s <- run d s; runs r s end.
Lemma run_eq : forall f i o deps s, run (Task f i o deps) s = do s1 <- runs deps s; do out <- f (input_rows s1 i); Ok (append o out s1).
Proof.
  intros f i o deps s. cbn [run].
  assert (G : forall l s, (fix go l s := match l with [] => Ok s | d :: r => do s <- run d s; go r s end) l s = runs l s).
  { induction l as [|d l IH]; intros s0; [reflexivity|]. cbn [runs]. destruct (run d s0) as [s1|]; [|reflexivity]. cbn [bind]. apply IH. }
  rewrite G. reflexivity.
Qed.
Lemma runs_app : forall a b s, runs (a ++ b) s = do s1 <- runs a s; runs b s1.
Proof. induction a as [|d a IH]; intros b s; [reflexivity|]. cbn [app runs]. destruct (run d s) as [s1|]; [|reflexivity]. cbn [bind]. apply IH. Qed.

Lemma mt_inj : forall a b, mt a = mt b -> a = b.
Proof. intros a b H. unfold memory_table in H. apply app_inv_head in H. exact H. Qed.
Definition fresh (k : nat) (tb : text -> list output) : Prop := forall j, k <= j -> tb (mt (temp j)) = [].
Definition no_temp (q : query) : Prop := forall n, reads n q -> forall j, n <> mt (temp j).
Definition outside_ (k k' : nat) (n : text) : Prop := forall j, k <= j < k' -> n <> mt (temp j).

(** The task whose output is still to be given. *)
Definition task_ok (c : task) (k k' : nat) (q : query) : Prop :=
  exists f i d, c = Task f i None d /\ forall s, fresh k (fst s) -> proper (fst s) q ->
    exists out s1, runs d s = Ok s1 /\ f (input_rows s1 i) = Ok out /\ means (fst s) q out /\ snd s1 = snd s /\ forall n, outside_ k k' n -> fst s1 n = fst s n.
Definition list_ok (cs : list task) (k k' : nat) (q : query) : Prop :=
  forall j s, j < k -> fresh k (fst s) -> proper (fst s) q -> let o := mt (temp j) in
    exists out s1, runs (map (set_output o) cs) s = Ok s1 /\ means (fst s) q out /\ snd s1 = snd s /\ fst s1 o = fst s o ++ out /\
      forall n, n <> o -> outside_ k k' n -> fst s1 n = fst s n.
Definition branches_ok (q : query) : Prop := forall k cs k', compile_branches q k = (cs, k') -> k <= k' /\ list_ok cs k k' q /\
  forall d star st from, q = Select d star st from -> exists c, cs = [c] /\ task_ok c k k' q.

Lemma single : forall c k k' q, task_ok c k k' q -> list_ok [c] k k' q.
Proof.
  intros c k k' q (f & i & d & -> & H) j s Hj F P o. assert (No : outside_ k k' o) by (intros j' Hj' E; apply mt_inj, temp_inj in E; lia). destruct (H s F P) as (out & s1 & R & E & M & S & U). exists out, (append (Some o) out s1).
  cbn [map set_output runs]. rewrite run_eq, R. cbn [bind]. rewrite E. cbn [bind]. split; [reflexivity|]. split; [exact M|]. split; [exact S|]. unfold append. cbn [fst].
  split; [rewrite text_eqb_refl, U by exact No; reflexivity|]. intros n N On. assert (text_eqb n o = false) as -> by (apply text_eqb_neq; exact N). apply U. exact On.
Qed.
(** A whole query from its branches. *)
Lemma whole_ok : forall q k cs k', no_temp q -> S k <= k' -> list_ok cs (S k) k' q -> (forall d star st from, q = Select d star st from -> exists c, cs = [c] /\ task_ok c (S k) k' q) ->
  task_ok (whole q k cs) k k' q.
Proof.
  intros q k cs k' NT Lk L Sel. destruct q as [d star st from|a b].
  - destruct (Sel d star st from eq_refl) as (c & -> & f & i & ds & -> & H). exists f, i, ds. split; [reflexivity|]. intros s F P.
    destruct (H s) as (out & s1 & R & E & M & S & U); [intros j Hj; apply F; lia|exact P|]. exists out, s1. repeat (split; [assumption|]). intros n On. apply U. intros j Hj. apply On. lia.
  - exists (union_task (UnionAll a b)), (Some (mt (temp k))), (map (set_output (mt (temp k))) cs). split; [reflexivity|]. intros s F P.
    destruct (L k s) as (out & s1 & R & M & S & Eo & U); [lia|intros j Hj; apply F; lia|exact P|].
    exists out, s1. split; [exact R|]. cbn [input_rows]. rewrite Eo, F by lia. cbn [app]. split; [eapply union_task_same; eassumption|]. split; [exact M|]. split; [exact S|].
    intros n On. apply U; [apply On; lia|]. intros j Hj. apply On. lia.
Qed.
Lemma select_runs : forall d star st from tb l, proper tb (Select d star st from) ->
  match from with Nothing => l = [[]] | Table n _ => l = tb n | Sub q _ => means tb q l end ->
  exists out, select_task d star st from l = Ok out /\ means tb (Select d star st from) out.
Proof.
  intros d star st from tb l P S. cbn [Full_Spec.proper Full_Spec.means] in *. destruct P as [Ps P]. specialize (P l S).
  destruct (select_answers frepr ident ext lib tt str_of primary pick pick1 nested raw state_name other rematch leK no_neg TK EQ HP HP1 INJ _ _ _ _ P) as (out & R & A).
  exists out. split; [|exists l; split; [exact S|exact A]]. unfold Full_Model.select_task. destruct star; [|exact R]. destruct from; [discriminate Ps|discriminate Ps|exact R].
Qed.

Lemma branches_compiled : forall q, no_temp q -> branches_ok q.
Proof.
  induction q as [d star st from IH|a b IHa IHb] using query_induction; intros NT k cs k' C.
  - enough (Q : exists c, cs = [c] /\ k <= k' /\ task_ok c k k' (Select d star st from)).
    { destruct Q as (c & -> & L & T). split; [exact L|]. split; [apply single; exact T|]. intros ? ? ? ? _. exists c. split; [reflexivity|exact T]. }
    cbn [Full_Model.compile_branches] in C. destruct from as [|n al|q al].
    + injection C as <- <-. eexists. split; [reflexivity|]. split; [lia|]. eexists _, _, _. split; [reflexivity|]. intros s F P.
      destruct (select_runs d star st Nothing (fst s) [[]] P eq_refl) as (out & R & M). exists out, s. split; [reflexivity|]. split; [exact R|]. split; [exact M|]. split; reflexivity.
    + injection C as <- <-. eexists. split; [reflexivity|]. split; [lia|]. eexists _, _, _. split; [reflexivity|]. intros s F P.
      destruct (select_runs d star st (Table n al) (fst s) (fst s n) P eq_refl) as (out & R & M). exists out, s. split; [reflexivity|]. split; [exact R|]. split; [exact M|]. split; reflexivity.
    + destruct (compile_branches q (Datatypes.S (Datatypes.S k))) as [cq k1] eqn:Cq. injection C as <- <-. eexists. split; [reflexivity|].
      destruct (IH q al eq_refl NT _ _ _ Cq) as (L1 & Lq & Sq). split; [lia|].
      assert (Nq : no_temp q) by exact NT. destruct (whole_ok q (Datatypes.S k) cq k1 Nq L1 Lq Sq) as (f & i & ds & Ew & W).
      eexists _, _, _. split; [reflexivity|]. intros s F P. pose proof P as P'. cbn [Full_Spec.proper] in P'. destruct P' as [Pq _].
      destruct (W s) as (l & s1 & R & E & M & S & U); [intros j Hj; apply F; lia|exact Pq|].
      destruct (select_runs d star st (Sub q al) (fst s) l P M) as (out & R2 & M2).
      exists out, (append (Some (mt (temp k))) l s1). rewrite Ew. cbn [set_output runs]. rewrite run_eq, R. cbn [bind]. rewrite E. cbn [bind]. split; [reflexivity|].
      cbn [input_rows]. unfold append. cbn [fst snd]. rewrite text_eqb_refl. rewrite U by (intros j Hj Z; apply mt_inj, temp_inj in Z; lia). rewrite F by lia. cbn [app].
      split; [exact R2|]. split; [exact M2|]. split; [exact S|]. intros n On. assert (text_eqb n (mt (temp k)) = false) as -> by (apply text_eqb_neq; apply On; lia).
      apply U. intros j Hj. apply On. lia.
  - cbn [Full_Model.compile_branches] in C. destruct (compile_branches a k) as [ca k1] eqn:Ca. destruct (compile_branches b k1) as [cb k2] eqn:Cb. injection C as <- <-.
    assert (NTa : no_temp a) by (intros n R; apply NT; left; exact R). assert (NTb : no_temp b) by (intros n R; apply NT; right; exact R).
    destruct (IHa NTa _ _ _ Ca) as (L1 & La & _). destruct (IHb NTb _ _ _ Cb) as (L2 & Lb & _). split; [lia|]. split; [|discriminate].
    intros j s Hj F P o. cbn [Full_Spec.proper] in P. destruct P as (Pa & Pb & E).
    destruct (La j s Hj F Pa) as (x & s1 & R1 & M1 & S1 & O1 & U1). fold o in R1, O1, U1.
    assert (Same : forall n, reads n b -> fst s n = fst s1 n).
    { intros n R. symmetry. apply U1; [exact (NTb n R j)|]. intros j' _. exact (NTb n R j'). }
    destruct (Lb j s1) as (y & s2 & R2 & M2 & S2 & O2 & U2); [lia| |exact (proper_ext tt fn str_of leK equal_keys reserved b _ _ Same Pb)|].
    { intros j' Hj'. rewrite U1; [apply F; lia| |]; [intros Z; apply mt_inj, temp_inj in Z; lia|intros i Hi Z; apply mt_inj, temp_inj in Z; lia]. }
    fold o in R2, O2, U2. exists (x ++ y), s2. rewrite map_app, runs_app, R1. cbn [bind]. split; [exact R2|]. split.
    { cbn [Full_Spec.means]. exists x, y. split; [exact M1|]. split; [|reflexivity]. apply (means_ext tt fn str_of leK equal_keys b (fst s1)); [|exact M2]. intros n R. symmetry. exact (Same n R). }
    split; [rewrite S2; exact S1|]. split; [rewrite O2, O1, app_assoc; reflexivity|]. intros n N On. rewrite U2; [apply U1|exact N|]; [exact N| |]; intros i Hi; apply On; lia.
Qed.
Lemma query_compiled : forall q k c k', no_temp q -> compile_query q k = (c, k') -> k <= k' /\ task_ok c k k' q.
Proof.
  intros q k c k' NT C. unfold Full_Model.compile_query in C. destruct (compile_branches q (S k)) as [cs k1] eqn:E. injection C as <- <-.
  destruct (branches_compiled q NT _ _ _ E) as (L & Lo & Se). split; [lia|]. apply whole_ok; assumption.
Qed.

(** ** WITH *)
(** No table read in the query, and no temporary one, has an input text that begins with the name. *)
Definition clash_free (name : text) (q : query) : Prop :=
  (forall n, reads n q -> ~ exists x, n ++ t "::" ++ pk = mt name ++ x) /\
  (forall j, ~ exists x, mt (temp j) ++ t "::" ++ pk = mt name ++ x) /\ (~ exists x, t "--.--::" ++ pk = mt name ++ x).
Definition known_input (q : query) (c : task) : Prop :=
  match c with Task _ (Some n) _ _ => reads n q \/ exists j, n = mt (temp j) | Task _ None _ _ => True end.
Lemma fix_known : forall name q c, clash_free name q -> known_input q c -> fix_dependency pk (mt name) c = c.
Proof.
  intros name q [f [i|] [o|] d] (C1 & C2 & C3) K; cbn [fix_dependency]; try reflexivity.
  - destruct (prefixb _ _) eqn:P; [|reflexivity]. exfalso. apply prefixb_spec in P. destruct P as [x E]. rewrite <- app_assoc in E. apply app_inv_head in E.
    destruct K as [R|(j & ->)]; [apply (C1 i R)|apply (C2 j)]; exists x; exact E.
  - destruct (prefixb _ _) eqn:P; [|reflexivity]. exfalso. apply prefixb_spec in P. destruct P as [x E]. rewrite <- app_assoc in E.
    change (t "&.--.--::" ++ pk) with (t "&." ++ (t "--.--::" ++ pk)) in E. apply app_inv_head in E. apply C3. exists x. exact E.
Qed.
Lemma branches_known : forall q k cs k', compile_branches q k = (cs, k') -> Forall (known_input q) cs.
Proof.
  induction q as [d star st from IH|a b IHa IHb] using query_induction; intros k cs k' C; cbn [Full_Model.compile_branches] in C.
  - destruct from as [|n al|q al].
    + injection C as <- <-. repeat constructor.
    + injection C as <- <-. constructor; [left; reflexivity|constructor].
    + destruct (compile_branches q (S (S k))) as [cq k1]. injection C as <- <-. constructor; [right; exists k; reflexivity|constructor].
  - destruct (compile_branches a k) as [ca k1] eqn:Ca. destruct (compile_branches b k1) as [cb k2] eqn:Cb. injection C as <- <-. apply Forall_app. split.
    + eapply Forall_impl; [|exact (IHa _ _ _ Ca)]. intros [f [i|] o dd] H; [|exact Logic.I]. destruct H as [H|H]; [left; left; exact H|right; exact H].
    + eapply Forall_impl; [|exact (IHb _ _ _ Cb)]. intros [f [i|] o dd] H; [|exact Logic.I]. destruct H as [H|H]; [left; right; exact H|right; exact H].
Qed.
Lemma known_set : forall q o c, known_input q c -> known_input q (set_output o c).
Proof. intros q o [f [i|] oo d] H; exact H. Qed.
Lemma deps_known : forall q k f i o d k', compile_query q k = (Task f i o d, k') -> Forall (known_input q) d.
Proof.
  intros q k f i o d k' C. unfold Full_Model.compile_query in C. destruct (compile_branches q (S k)) as [cs k1] eqn:E. pose proof (branches_known q _ _ _ E) as B.
  destruct q as [dd star st from|a b].
  - cbn [Full_Model.compile_branches] in E. destruct from as [|n al|q al].
    + injection E as <- <-. injection C as <- <- <- <- <-. constructor.
    + injection E as <- <-. injection C as <- <- <- <- <-. constructor.
    + destruct (compile_branches q (S (S (S k)))) as [cq k2] eqn:Eq. injection E as <- <-. injection C as <- <- <- <- <-. constructor; [|constructor]. apply known_set.
      destruct q as [dd' star' st' from'|a b].
      * pose proof (branches_known _ _ _ _ Eq) as B'. destruct cq as [|c cq]; [exact Logic.I|]. inversion B'; subst. assumption.
      * right. eexists. reflexivity.
  - injection C as <- <- <- <- <-. apply Forall_forall. intros c I. apply in_map_iff in I as (c' & <- & I). apply known_set. rewrite Forall_forall in B. exact (B c' I).
Qed.

Definition agree (s tb : text -> list output) : Prop := forall n, (forall j, n <> mt (temp j)) -> s n = tb n.
Lemma with_compiled : forall ctes q, (forall name q', In (name, q') ctes -> no_temp q' /\ clash_free name q' /\ forall j, name <> temp j) -> NoDup (map fst ctes) ->
  forall k cs k', compile_with frepr ident ext lib str_of primary pick pick1 nested raw state_name other rematch leK temp pk ctes k = (cs, k') ->
  k <= k' /\ forall s tb, fresh k (fst s) -> agree (fst s) tb -> (forall name, In name (map fst ctes) -> tb (mt name) = []) ->
    with_proper tt fn str_of leK equal_keys reserved tb ctes q ->
    exists s1 tb1, runs cs s = Ok s1 /\ snd s1 = snd s /\ fresh k' (fst s1) /\ agree (fst s1) tb1 /\ proper tb1 q /\
      forall out, means tb1 q out -> with_means tt fn str_of leK equal_keys tb ctes q out.
Proof.
  intros ctes q. induction ctes as [|[name q'] ctes IH]; intros H ND k cs k' C; cbn [compile_with] in C.
  - injection C as <- <-. split; [lia|]. intros s tb F A _ P. exists s, tb. split; [reflexivity|]. split; [reflexivity|]. split; [exact F|]. split; [exact A|]. split; [exact P|]. exact (fun out M => M).
  - destruct (compile_query q' k) as [[f i o d] k1] eqn:Cq. destruct (compile_with _ _ _ _ _ _ _ _ _ _ _ _ _ _ _ _ ctes k1) as [cs' k2] eqn:Cw. injection C as <- <-.
    destruct (H name q' (or_introl eq_refl)) as (NT & CF & NN). inversion ND as [|? ? N1 N2]; subst.
    destruct (query_compiled q' k _ k1 NT Cq) as (L1 & f' & i' & d' & E & T). injection E as <- <- -> <-.
    destruct (IH (fun m x I => H m x (or_intror I)) N2 k1 cs' k2 Cw) as (L2 & W). split; [lia|].
    intros s tb F A Em P. cbn [with_proper] in P. destruct P as [Pq Pr].
    assert (Rd : forall n, reads n q' -> tb n = fst s n) by (intros n R; symmetry; apply A; exact (NT n R)).
    destruct (T s F (proper_ext tt fn str_of leK equal_keys reserved q' _ _ Rd Pq)) as (out & s1 & R & Ef & M & S & U).
    assert (M' : means tb q' out) by (apply (means_ext tt fn str_of leK equal_keys q' (fst s)); [intros n Rn; symmetry; exact (Rd n Rn)|exact M]).
    assert (FD : map (fix_dependency pk (mt name)) d = d).
    { rewrite <- (map_id d) at 2. apply map_ext_in. intros c I. apply (fix_known name q'); [exact CF|]. pose proof (deps_known q' k _ _ _ _ _ Cq) as K. rewrite Forall_forall in K. exact (K c I). }
    rewrite FD. assert (Nm : forall j, mt name <> mt (temp j)) by (intros j Z; apply mt_inj in Z; exact (NN j Z)).
    destruct (W (append (Some (mt name)) out s1) (define tb name out)) as (s2 & tb2 & R2 & S2 & F2 & A2 & P2 & M2).
    + intros j Hj. unfold append. cbn [fst]. assert (text_eqb (mt (temp j)) (mt name) = false) as -> by (apply text_eqb_neq; intros Z; symmetry in Z; exact (Nm j Z)).
      rewrite U; [apply F; lia|]. intros j' Hj' Z. apply mt_inj, temp_inj in Z. lia.
    + intros n Hn. unfold append, define. cbn [fst]. rewrite U by (intros j _; apply Hn). rewrite (A n Hn). destruct (text_eqb n (mt name)) eqn:E; [|reflexivity].
      apply text_eqb_spec in E. subst n. rewrite Em by (left; reflexivity). reflexivity.
    + intros m I. unfold define. destruct (text_eqb (mt m) (mt name)) eqn:E; [apply text_eqb_spec, mt_inj in E; subst m; destruct (N1 I)|]. apply Em. right. exact I.
    + exact (Pr out M').
    + exists s2, tb2. cbn [runs]. rewrite run_eq, R. cbn [bind]. rewrite Ef. cbn [bind]. split; [exact R2|]. split; [rewrite S2; exact S|]. split; [exact F2|]. split; [exact A2|]. split; [exact P2|].
      intros x Mx. cbn [with_means]. exists out. split; [exact M'|]. exact (M2 x Mx).
Qed.
Lemma statement_executes : forall ctes q tables, (forall name q', In (name, q') ctes -> no_temp q' /\ clash_free name q' /\ forall j, name <> temp j) -> NoDup (map fst ctes) ->
  no_temp q -> fresh 0 tables -> (forall name, In name (map fst ctes) -> tables (mt name) = []) -> with_proper tt fn str_of leK equal_keys reserved tables ctes q ->
  exists out, execute frepr ident ext lib str_of primary pick pick1 nested raw state_name other rematch leK temp pk ctes q tables = Ok out /\
              with_means tt fn str_of leK equal_keys tables ctes q out.
Proof.
  intros ctes q tables H ND NT F Em P. unfold execute, compile_statement. destruct (compile_with _ _ _ _ _ _ _ _ _ _ _ _ _ _ _ _ ctes 0) as [cs k] eqn:Cw.
  destruct (compile_query q k) as [[f i o d] k'] eqn:Cq. destruct (with_compiled ctes q H ND 0 cs k Cw) as (_ & W).
  destruct (W (tables, []) tables F (fun n _ => eq_refl) Em P) as (s1 & tb1 & R1 & S1 & F1 & A1 & P1 & M1).
  destruct (query_compiled q k _ k' NT Cq) as (_ & f' & i' & d' & E & T). injection E as <- <- -> <-.
  assert (Rd : forall n, reads n q -> tb1 n = fst s1 n) by (intros n R; symmetry; apply A1; exact (NT n R)).
  destruct (T s1 F1 (proper_ext tt fn str_of leK equal_keys reserved q _ _ Rd P1)) as (out & s2 & R & Ef & M & S & U).
  exists out. rewrite run_eq, runs_app, R1. cbn [bind]. rewrite R. cbn [bind]. rewrite Ef. cbn [bind append snd]. rewrite S, S1. cbn [snd app]. split; [reflexivity|].
  apply M1. apply (means_ext tt fn str_of leK equal_keys q (fst s1)); [|exact M]. intros n Rn. symmetry. exact (Rd n Rn).
Qed.
End Full.

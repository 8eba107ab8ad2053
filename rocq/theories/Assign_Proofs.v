From Coq Require Import Lia.
From Verif Require Import Base Agg_Model Env_Model Env_Props Json_Proofs Assign_Syntax Assign_Model Assign_Spec.
Set Implicit Arguments.

Section Ind.
Variable V : Type.
Variable P : sexpr V -> Prop.
Hypotheses (Hk : forall v, P (SConst v)) (Hc : forall n, P (SCol n)) (Hv : forall x, P (SVar x)) (Ha : forall x e, P e -> P (SAssign x e))
  (Hf : forall f l, Forall P l -> P (SCall f l)) (Hi : forall c a b, P c -> P a -> P b -> P (SIf c a b)) (Hn : forall a b, P a -> P b -> P (SIfNull a b))
  (Hco : forall a l, P a -> Forall P l -> P (SCoalesce a l))
  (Hca : forall this ifs els, match this with None => True | Some e => P e end -> Forall (fun wt => P (fst wt) /\ P (snd wt)) ifs -> P els -> P (SCase this ifs els)).
Fixpoint sexpr_ind' (e : sexpr V) : P e :=
  let all := fix all (l : list (sexpr V)) : Forall P l := match l with [] => Forall_nil _ | a :: l => Forall_cons _ (sexpr_ind' a) (all l) end in
  match e with
  | SConst v => Hk v
  | SCol n => Hc n
  | SVar x => Hv x
  | SAssign x a => Ha x (sexpr_ind' a)
  | SCall f l => Hf f (all l)
  | SIf c a b => Hi (sexpr_ind' c) (sexpr_ind' a) (sexpr_ind' b)
  | SIfNull a b => Hn (sexpr_ind' a) (sexpr_ind' b)
  | SCoalesce a l => Hco (sexpr_ind' a) (all l)
  | SCase this ifs els =>
    Hca this (match this with None => I | Some e => sexpr_ind' e end)
      ((fix pairs (l : list (sexpr V * sexpr V)) : Forall (fun wt => P (fst wt) /\ P (snd wt)) l :=
          match l with [] => Forall_nil _ | wt :: l => Forall_cons wt (conj (sexpr_ind' (fst wt)) (sexpr_ind' (snd wt))) (pairs l) end) ifs)
      (sexpr_ind' els)
  end.
End Ind.

Section Proofs.
Variable V : Type.
Variable L : values V.
Notation heap := (Env_Model.heap V).
Variable null_test : bool -> V.
Hypothesis Htest : forall b, v_true L (null_test b) = b.
Hypothesis Heq : forall a b, v_true L (v_fn L (t "eq") [a; b]) = v_same L b a.

(** The variables *)
Lemma search_set_other : forall fuel (h : heap) s k v i k', k' <> k -> (forall b, k' = 64%N :: b -> b <> k) -> search V fuel (set_var V h s k v) i k' = search V fuel h i k'.
Proof.
  induction fuel as [|f IH]; intros h s k v i k' Hk Hb; [reflexivity|]. cbn [search]. rewrite set_var_nth. destruct (nth_error h i) as [c|] eqn:E; [|reflexivity].
  assert (Hother : forall k0, k0 <> k -> assoc k0 (dict_set k v (svars V c)) = assoc k0 (svars V c)).
  { intros k0 H0. rewrite assoc_dict_set. assert (text_eqb k0 k = false) as -> by now apply text_eqb_neq. reflexivity. }
  destruct (Nat.eqb i s); cbn [svars sparent].
  - rewrite (Hother k' Hk). destruct (assoc k' (svars V c)); [reflexivity|].
    assert (Eb : match k' with 64%N :: b => assoc b (dict_set k v (svars V c)) | _ => None end = match k' with 64%N :: b => assoc b (svars V c) | _ => None end).
    { destruct k' as [|ch b]; [reflexivity|]. destruct (N.eq_dec ch 64) as [->|Hn].
      - apply Hother. now apply Hb.
      - destruct ch as [|ch]; [reflexivity|]. do 7 (destruct ch as [ch|ch|]; try reflexivity). congruence. }
    rewrite Eb. destruct (match k' with 64%N :: b => assoc b (svars V c) | _ => None end); [reflexivity|]. destruct (sparent V c); [now apply IH|reflexivity].
  - destruct (assoc k' (svars V c)); [reflexivity|]. destruct (match k' with 64%N :: b => assoc b (svars V c) | _ => None end); [reflexivity|].
    destruct (sparent V c); [now apply IH|reflexivity].
Qed.
Lemma set_var_length : forall (h : heap) s k v, length (set_var V h s k v) = length h.
Proof. induction h as [|c h IH]; intros s k v; [reflexivity|]. destruct s as [|s]; cbn [set_var length]; [reflexivity|]. now rewrite IH. Qed.

Variable s : nat.
Definition kept (h h' : heap) : Prop := length h' = length h /\ forall p, p <> s -> nth_error h' p = nth_error h p.
Definition shows (h : heap) (st : vars V) : Prop := forall x, named x -> var_get L h s x = st x.
Lemma kept_refl : forall h, kept h h. Proof. now split. Qed.
Lemma kept_trans : forall a b c, kept a b -> kept b c -> kept a c.
Proof. intros a b c [A1 A2] [B1 B2]. split; [congruence|]. intros p Hp. rewrite (B2 p Hp). now apply A2. Qed.

Lemma var_set_kept : forall h x v, kept h (var_set h s x v).
Proof.
  intros h x v. split; [apply set_var_length|]. intros p Hp. unfold var_set. rewrite set_var_nth. destruct (nth_error h p); [|reflexivity].
  assert (Nat.eqb p s = false) as -> by now apply Nat.eqb_neq. reflexivity.
Qed.
Lemma var_set_shows : forall h st x v, s < length h -> shows h st -> named x -> shows (var_set h s x v) (assign st x v).
Proof.
  intros h st x v Hs Hsh Hx y Hy. unfold assign, var_get, get, var_set. destruct (text_eqb y x) eqn:E.
  - apply text_eqb_spec in E. subst y. cbn [search]. rewrite set_var_nth. destruct (nth_error h s) as [c|] eqn:En; [|apply nth_error_None in En; lia].
    rewrite Nat.eqb_refl. cbn [svars]. rewrite assoc_dict_set, text_eqb_refl. reflexivity.
  - rewrite search_set_other; [exact (Hsh y Hy)| |].
    + intros E'. injection E' as ->. rewrite text_eqb_refl in E. discriminate.
    + intros b Eb. injection Eb as <-. apply Hy.
Qed.

Variables (h0 : heap) (r : row V).
Notation ev := (ev L s r null_test). Notation compile := (compile L h0 s). Notation columns := (columns L s null_test). Notation sem := (sem L r). Notation sem_items := (sem_items L r).

(** Equations *)
Lemma ev_call : forall f l h, ev (ACall f l) h = let (vs, h1) := columns l r h in (v_fn L f vs, h1).
Proof.
  intros f l h. cbn [Assign_Model.ev]. match goal with |- (let (_, _) := ?F l h in _) = _ => assert (E : forall l h, F l h = columns l r h) end.
  { induction l0 as [|a l0 IH]; intros h1; [reflexivity|]. cbn [Assign_Model.columns]. destruct (Assign_Model.ev L s r null_test a h1). rewrite IH. reflexivity. }
  now rewrite E.
Qed.
Lemma sem_call : forall f l st, sem (SCall f l) st = let (vs, st1) := sem_items l st in (v_fn L f vs, st1).
Proof.
  intros f l st. cbn [Assign_Spec.sem]. match goal with |- (let (_, _) := ?F l st in _) = _ => assert (E : forall l st, F l st = sem_items l st) end.
  { induction l0 as [|a l0 IH]; intros st1; [reflexivity|]. cbn [Assign_Spec.sem_items]. destruct (Assign_Spec.sem L r a st1). rewrite IH. reflexivity. }
  now rewrite E.
Qed.
Fixpoint sem_first (l : list (sexpr V)) (st : vars V) : V * vars V :=
  match l with
  | [] => (v_null L, st)
  | a :: l => let (v, st1) := sem a st in match l with [] => (v, st1) | _ => if v_isnull L v then sem_first l st1 else (v, st1) end
  end.
Lemma sem_coalesce : forall a l st, sem (SCoalesce a l) st = let (v, st1) := sem a st in if v_isnull L v then sem_first l st1 else (v, st1).
Proof.
  intros a l st. cbn [Assign_Spec.sem]. destruct (Assign_Spec.sem L r a st) as [v st1]. destruct (v_isnull L v); [|reflexivity].
  revert st1. induction l as [|b l IH]; intros st1; [reflexivity|]. cbn [sem_first]. destruct (Assign_Spec.sem L r b st1) as [w st2]. destruct l; [reflexivity|]. destruct (v_isnull L w); [apply IH|reflexivity].
Qed.
Fixpoint sem_cases (o : option V) (els : sexpr V) (l : list (sexpr V * sexpr V)) (st : vars V) : V * vars V :=
  match l with
  | [] => sem els st
  | (w, a) :: l =>
    let (v, st1) := sem w st in
    if v_true L (match o with None => v | Some o => v_fn L (t "eq") [o; v] end) then sem a st1 else sem_cases o els l st1
  end.
Lemma sem_case_none : forall ifs els st, sem (SCase None ifs els) st = sem_cases None els ifs st.
Proof.
  intros ifs els st. cbn [Assign_Spec.sem]. revert st. induction ifs as [|[w a] l IH]; intros st; [reflexivity|]. cbn [sem_cases]. destruct (Assign_Spec.sem L r w st) as [v st1]. destruct (v_true L v); [reflexivity|apply IH].
Qed.
Lemma sem_case_some : forall e ifs els st, sem (SCase (Some e) ifs els) st = let (o, st0) := sem e st in sem_cases (Some o) els ifs st0.
Proof.
  intros e ifs els st. cbn [Assign_Spec.sem]. destruct (Assign_Spec.sem L r e st) as [o st0]. revert st0. induction ifs as [|[w a] l IH]; intros st1; [reflexivity|]. cbn [sem_cases].
  destruct (Assign_Spec.sem L r w st1) as [v st2]. destruct (v_true L (v_fn L (t "eq") [o; v])); [reflexivity|apply IH].
Qed.
Fixpoint pick (v : V) (d : list (V * valuer V)) (e : valuer V) (h : heap) : V * heap :=
  match d with [] => ev e h | (k, a) :: d => if v_same L k v then ev a h else pick v d e h end.
Lemma ev_dict : forall o d e h, ev (ADict o d e) h = let (v, h1) := ev o h in pick v d e h1.
Proof.
  intros o d e h. cbn [Assign_Model.ev]. destruct (Assign_Model.ev L s r null_test o h) as [v h1]. induction d as [|[k a] d IH]; [reflexivity|]. cbn [pick]. destruct (v_same L k v); [reflexivity|exact IH].
Qed.
Lemma ev_if : forall c a b h, ev (AIf c a b) h = let (v, h1) := ev c h in if v_true L v then ev a h1 else ev b h1.
Proof. reflexivity. Qed.
Lemma ev_isnull : forall a h, ev (AIsNull a) h = let (v, h1) := ev a h in (null_test (v_isnull L v), h1).
Proof. reflexivity. Qed.

(** Expressions without assignments change nothing. *)
Definition still (e : sexpr V) : Prop := (forall h, exists v, ev (compile e) h = (v, h)) /\ forall st, exists v, sem e st = (v, st).
Lemma still_list : forall l, Forall still l -> (forall h, exists vs, columns (map compile l) r h = (vs, h)) /\ forall st, exists vs, sem_items l st = (vs, st).
Proof.
  induction l as [|a l IH]; intros H; [split; intros; now exists []|]. apply Forall_cons_iff in H. destruct H as [[A1 A2] H]. destruct (IH H) as [B1 B2]. split.
  - intros h. cbn [map Assign_Model.columns]. destruct (A1 h) as [v Ev]. rewrite Ev. destruct (B1 h) as [vs Evs]. rewrite Evs. eauto.
  - intros st. cbn [Assign_Spec.sem_items]. destruct (A2 st) as [v Ev]. rewrite Ev. destruct (B2 st) as [vs Evs]. rewrite Evs. eauto.
Qed.
Lemma ev_coalesce_cons : forall c c' l h, ev (coalesce L (c :: c' :: l)) h = let (v, h1) := ev c h in if v_isnull L v then ev (coalesce L (c' :: l)) h1 else ev c h1.
Proof.
  intros c c' l h. change (coalesce L (c :: c' :: l)) with (AIf (AIsNull c) (coalesce L (c' :: l)) c). rewrite ev_if, ev_isnull. destruct (ev c h) as [v h1]. rewrite Htest. reflexivity.
Qed.
Lemma still_coalesce : forall l, Forall still l -> (forall h, exists v, ev (coalesce L (map compile l)) h = (v, h)) /\ forall st, exists v, sem_first l st = (v, st).
Proof.
  induction l as [|a l IH]; intros H; [split; intros; eexists; reflexivity|]. apply Forall_cons_iff in H. destruct H as [[A1 A2] H]. destruct (IH H) as [B1 B2]. split.
  - intros h. destruct l as [|b l]; [exact (A1 h)|]. cbn [map]. rewrite ev_coalesce_cons. destruct (A1 h) as [v Ev]. rewrite Ev. destruct (v_isnull L v); [apply B1|rewrite Ev; eauto].
  - intros st. cbn [sem_first]. destruct (A2 st) as [v Ev]. rewrite Ev. destruct l as [|b l]; [eauto|]. destruct (v_isnull L v); [apply B2|eauto].
Qed.
Lemma still_build : forall o ifs els, match o with None => True | Some e => still e end -> Forall (fun wt => still (fst wt) /\ still (snd wt)) ifs -> still els ->
  forall h, exists v, ev (build_if (option_map compile o) (map (fun wt => (compile (fst wt), compile (snd wt))) ifs) (compile els)) h = (v, h).
Proof.
  intros o ifs els Ho. induction ifs as [|[w a] ifs IH]; intros H He h; [exact (proj1 He h)|]. apply Forall_cons_iff in H. destruct H as [[W A] H]. cbn [fst snd] in W, A.
  cbn [map build_if fst snd]. rewrite ev_if. destruct o as [e|]; cbn [option_map].
  - rewrite ev_call. cbn [Assign_Model.columns]. destruct (proj1 Ho h) as [v Ev]. rewrite Ev. destruct (proj1 W h) as [u Eu]. rewrite Eu. destruct (v_true L _); [apply (proj1 A)|now apply IH].
  - destruct (proj1 W h) as [u Eu]. rewrite Eu. destruct (v_true L u); [apply (proj1 A)|now apply IH].
Qed.
Lemma still_pick : forall d e v h, (forall k a, In (k, a) d -> exists v, ev a h = (v, h)) -> (exists v, ev e h = (v, h)) -> exists w, pick v d e h = (w, h).
Proof.
  induction d as [|[k a] d IH]; intros e v h H He; [exact He|]. cbn [pick]. destruct (v_same L k v); [apply (H k a); now left|]. apply IH; [intros k' a' Hi; apply (H k' a'); now right|exact He].
Qed.
Lemma dict_put_in : forall d k a k' a', In (k', a') (dict_put L d k a) -> In a' (a :: map snd d).
Proof.
  induction d as [|[k1 a1] d IH]; intros k a k' a' H; cbn [dict_put] in H.
  - destruct H as [H|[]]. injection H as _ <-. now left.
  - destruct (v_same L k1 k).
    + destruct H as [H|H]; [injection H as _ <-; now left|]. right. right. apply in_map_iff. now exists (k', a').
    + destruct H as [H|H]; [injection H as _ <-; right; now left|]. destruct (IH _ _ _ _ H) as [->|Hi]; [now left|]. right. now right.
Qed.
Lemma dict_fold_in : forall ifs d k' a', In (k', a') (fold_left (fun d wt => dict_put L d (const_value L h0 s (fst wt)) (compile (snd wt))) ifs d) ->
  In a' (map snd d) \/ exists wt, In wt ifs /\ a' = compile (snd wt).
Proof.
  induction ifs as [|wt ifs IH]; intros d k' a' H; cbn [fold_left] in H; [left; apply in_map_iff; now exists (k', a')|].
  destruct (IH _ _ _ H) as [Hi|(wt' & Hi & E)]; [|right; exists wt'; split; [now right|exact E]].
  apply in_map_iff in Hi. destruct Hi as ([k1 a1] & E & Hi). cbn in E. subst a1. destruct (dict_put_in _ _ _ _ _ Hi) as [<-|Hi']; [right; exists wt; split; [now left|reflexivity]|now left].
Qed.

Lemma reads_still : forall e, reads_only e = true -> still e.
Proof.
  induction e as [v|n|x|x e IH|f l IH|c a b IHc IHa IHb|a b IHa IHb|a l IHa IHl|this ifs els IHt IHi IHe] using sexpr_ind'; intros H; cbn [reads_only] in H.
  - split; intros; eexists; reflexivity.
  - split; intros; eexists; reflexivity.
  - split; intros; eexists; reflexivity.
  - discriminate.
  - assert (Hl : Forall still l).
    { rewrite Forall_forall in *. rewrite forallb_forall in H. intros a Ha. now apply IH, H. }
    destruct (still_list Hl) as [A B]. split.
    + intros h. cbn [Assign_Model.compile]. rewrite ev_call. destruct (A h) as [vs E]. rewrite E. eauto.
    + intros st. rewrite sem_call. destruct (B st) as [vs E]. rewrite E. eauto.
  - apply andb_prop in H. destruct H as [H Hb]. apply andb_prop in H. destruct H as [Hc Ha]. specialize (IHc Hc). specialize (IHa Ha). specialize (IHb Hb). split.
    + intros h. cbn [Assign_Model.compile]. rewrite ev_if. destruct (proj1 IHc h) as [v E]. rewrite E. destruct (v_true L v); [apply (proj1 IHa)|apply (proj1 IHb)].
    + intros st. cbn [Assign_Spec.sem]. destruct (proj2 IHc st) as [v E]. rewrite E. destruct (v_true L v); [apply (proj2 IHa)|apply (proj2 IHb)].
  - apply andb_prop in H. destruct H as [Ha Hb]. specialize (IHa Ha). specialize (IHb Hb). split.
    + intros h. cbn [Assign_Model.compile]. rewrite ev_if, ev_isnull. destruct (proj1 IHa h) as [v E]. rewrite E, Htest. destruct (v_isnull L v); [apply (proj1 IHb)|rewrite E; eauto].
    + intros st. cbn [Assign_Spec.sem]. destruct (proj2 IHa st) as [v E]. rewrite E. destruct (v_isnull L v); [apply (proj2 IHb)|eauto].
  - apply andb_prop in H. destruct H as [Ha Hl0]. specialize (IHa Ha).
    assert (Hl : Forall still l).
    { rewrite Forall_forall in *. rewrite forallb_forall in Hl0. intros b Hb. now apply IHl, Hl0. }
    destruct (still_coalesce Hl) as [A B]. split.
    + intros h. cbn [Assign_Model.compile]. rewrite ev_if, ev_isnull. destruct (proj1 IHa h) as [v E]. rewrite E, Htest. destruct (v_isnull L v); [apply A|rewrite E; eauto].
    + intros st. rewrite sem_coalesce. destruct (proj2 IHa st) as [v E]. rewrite E. destruct (v_isnull L v); [apply B|eauto].
  - apply andb_prop in H. destruct H as [H He]. apply andb_prop in H. destruct H as [Ht Hi]. specialize (IHe He).
    assert (Hl : Forall (fun wt => still (fst wt) /\ still (snd wt)) ifs).
    { rewrite Forall_forall in *. rewrite forallb_forall in Hi. intros wt Hw. specialize (Hi _ Hw). apply andb_prop in Hi. destruct (IHi _ Hw) as [A B]. split; [apply A|apply B]; apply Hi. }
    assert (Ho : match this with None => True | Some e => still e end) by (destruct this; [now apply IHt|exact I]).
    assert (Hsem : forall o st, exists v, sem_cases o els ifs st = (v, st)).
    { clear - Hl IHe. intros o. induction ifs as [|[w a] ifs IH]; intros st; [apply (proj2 IHe)|]. apply Forall_cons_iff in Hl. destruct Hl as [[W A] Hl]. cbn [fst snd] in W, A. cbn [sem_cases].
      destruct (proj2 W st) as [v E]. rewrite E. destruct (v_true L _); [apply (proj2 A)|now apply IH]. }
    split.
    + intros h. cbn [Assign_Model.compile]. destruct this as [e|]; [|exact (still_build None I Hl IHe h)].
      destruct (forallb (fun wt => is_const (fst wt)) ifs); [|exact (still_build (Some e) Ho Hl IHe h)].
      rewrite ev_dict. destruct (proj1 Ho h) as [v E]. rewrite E. apply still_pick; [|apply (proj1 IHe)].
      intros k a Hin. destruct (dict_fold_in _ _ _ _ Hin) as [[]|(wt & Hw & ->)]. rewrite Forall_forall in Hl. apply (proj1 (proj2 (Hl _ Hw))).
    + intros st. destruct this as [e|]; [|rewrite sem_case_none; apply Hsem]. rewrite sem_case_some. destruct (proj2 Ho st) as [v E]. rewrite E. apply Hsem.
Qed.

(** The compiled expression computes what the specification says. *)
Definition like (h : heap) (st : vars V) (a : V * heap) (b : V * vars V) : Prop := fst a = fst b /\ kept h (snd a) /\ shows (snd a) (snd b).
Definition agrees (e : sexpr V) : Prop := forall h st, s < length h -> shows h st -> like h st (ev (compile e) h) (sem e st).
Lemma like_kept : forall h h1 st a b, kept h h1 -> like h1 st a b -> like h st a b.
Proof. intros h h1 st a b H (A & B & C). split; [exact A|]. split; [exact (kept_trans H B)|exact C]. Qed.

Lemma agrees_list : forall l, Forall agrees l -> forall h st, s < length h -> shows h st ->
  fst (columns (map compile l) r h) = fst (sem_items l st) /\ kept h (snd (columns (map compile l) r h)) /\ shows (snd (columns (map compile l) r h)) (snd (sem_items l st)).
Proof.
  induction l as [|a l IH]; intros H h st Hs Hsh; [split; [reflexivity|]; split; [apply kept_refl|exact Hsh]|]. apply Forall_cons_iff in H. destruct H as [Ha H].
  cbn [map Assign_Model.columns Assign_Spec.sem_items]. destruct (Ha h st Hs Hsh) as (A & B & C). destruct (ev (compile a) h) as [v h1], (sem a st) as [v' st1]. cbn [fst snd] in A, B, C. subst v'.
  destruct (IH H h1 st1) as (A' & B' & C'); [rewrite (proj1 B); exact Hs|exact C|]. destruct (columns (map compile l) r h1) as [vs h2], (sem_items l st1) as [vs' st2]. cbn [fst snd] in *. subst vs'.
  split; [reflexivity|]. split; [exact (kept_trans B B')|exact C'].
Qed.

Lemma agrees_first : forall l, Forall agrees l -> (fix all l := match l with [] => True | a :: l => (l <> [] -> reads_only a = true) /\ plain L a /\ all l end) l ->
  forall h st, s < length h -> shows h st -> like h st (ev (coalesce L (map compile l)) h) (sem_first l st).
Proof.
  induction l as [|a l IH]; intros H Hp h st Hs Hsh; [split; [reflexivity|]; split; [apply kept_refl|exact Hsh]|]. apply Forall_cons_iff in H. destruct H as [Ha H]. destruct Hp as (Hr & _ & Hp).
  destruct l as [|b l].
  - cbn [map coalesce sem_first]. assert (X := Ha h st Hs Hsh). destruct (sem a st). exact X.
  - cbn [map]. rewrite ev_coalesce_cons. destruct (proj1 (reads_still a (Hr ltac:(discriminate))) h) as [v E]. destruct (proj2 (reads_still a (Hr ltac:(discriminate))) st) as [v' E'].
    assert (X := Ha h st Hs Hsh). change (sem_first (a :: b :: l) st) with (let (v, st1) := sem a st in if v_isnull L v then sem_first (b :: l) st1 else (v, st1)).
    rewrite E, E' in X |- *. destruct X as (X & _). cbn [fst] in X. subst v'. destruct (v_isnull L v); [exact (IH H Hp h st Hs Hsh)|]. rewrite E. split; [reflexivity|]. split; [apply kept_refl|exact Hsh].
Qed.

Lemma agrees_cases : forall (o : option (sexpr V)) els, match o with None => True | Some e => reads_only e = true end -> agrees els ->
  forall ifs, Forall (fun wt => agrees (fst wt) /\ agrees (snd wt)) ifs -> (forall e, o = Some e -> forall w, In w (map fst ifs) -> reads_only w = true) ->
  forall h st ov, s < length h -> shows h st -> match o with None => ov = None | Some e => exists v, ev (compile e) h = (v, h) /\ ov = Some v end ->
  like h st (ev (build_if (option_map compile o) (map (fun wt => (compile (fst wt), compile (snd wt))) ifs) (compile els)) h) (sem_cases ov els ifs st).
Proof.
  intros o els Ho He ifs. induction ifs as [|[w a] ifs IH]; intros H Hw h st ov Hs Hsh Hov; [exact (He h st Hs Hsh)|]. apply Forall_cons_iff in H. destruct H as [[W A] H]. cbn [fst snd] in W, A.
  cbn [map build_if fst snd sem_cases]. rewrite ev_if. destruct o as [e|]; cbn [option_map].
  - destruct Hov as (v & Ev & ->). rewrite ev_call. cbn [Assign_Model.columns]. rewrite Ev. assert (Rw : reads_only w = true) by (apply (Hw e eq_refl); now left).
    destruct (proj1 (reads_still w Rw) h) as [u Eu]. destruct (proj2 (reads_still w Rw) st) as [u' Eu']. destruct (W h st Hs Hsh) as (X & _). rewrite Eu, Eu' in X |- *. cbn [fst] in X. subst u'.
    destruct (v_true L (v_fn L (t "eq") [v; u])); [exact (A h st Hs Hsh)|]. apply IH; auto; [|now exists v]. intros e' Ee' w' Hw'. apply (Hw e' Ee'). now right.
  - subst ov. destruct (W h st Hs Hsh) as (X & Y & Z). destruct (ev (compile w) h) as [u h1], (sem w st) as [u' st1]. cbn [fst snd] in X, Y, Z. subst u'.
    assert (Hs1 : s < length h1) by (rewrite (proj1 Y); exact Hs).
    apply (like_kept Y). destruct (v_true L u); [exact (A h1 st1 Hs1 Z)|]. apply (IH H) with (ov := None); auto. intros e' Ee'. discriminate.
Qed.

(** The dict of a simple CASE whose WHENs are different literals. *)
Lemma dict_put_new : forall d k a, (forall k' a', In (k', a') d -> v_same L k' k = false) -> dict_put L d k a = d ++ [(k, a)].
Proof.
  induction d as [|[k1 a1] d IH]; intros k a H; [reflexivity|]. cbn [dict_put]. rewrite (H k1 a1) by now left. cbn [app]. rewrite IH; [reflexivity|]. intros k' a' Hi. apply (H k' a'). now right.
Qed.
Lemma dict_literals : forall ifs d, forallb (@literal V) (map fst ifs) = true -> different L (map fst ifs) ->
  (forall k a wt v, In (k, a) d -> In wt ifs -> fst wt = SConst v -> v_same L k v = false) ->
  fold_left (fun d wt => dict_put L d (const_value L h0 s (fst wt)) (compile (snd wt))) ifs d = d ++ map (fun wt => (const_value L h0 s (fst wt), compile (snd wt))) ifs.
Proof.
  induction ifs as [|[w a] ifs IH]; intros d Hl Hd Hk; [cbn; now rewrite app_nil_r|]. cbn [map fst forallb] in Hl, Hd. apply andb_prop in Hl. destruct Hl as [Hw Hl]. cbn [different] in Hd. destruct Hd as [Hd1 Hd2].
  destruct w as [v|?|?|?|?|?|?|?|?]; try discriminate. cbn [fold_left map fst snd const_value].
  rewrite dict_put_new by (intros k' a' Hi; apply (Hk k' a' (SConst v, a) v Hi); [now left|reflexivity]). rewrite IH; auto.
  - now rewrite <- app_assoc.
  - intros k a0 wt v0 Hi Hwt E. apply in_app_iff in Hi. destruct Hi as [Hi|[Hi|[]]]; [apply (Hk k a0 wt v0 Hi); [now right|exact E]|]. injection Hi as <- <-.
    apply (Hd1 v (fst wt) v0 eq_refl); [now apply in_map|exact E].
Qed.
Lemma pick_cases : forall v els ifs h st, forallb (@literal V) (map fst ifs) = true -> agrees els -> Forall (fun wt => agrees (snd wt)) ifs -> s < length h -> shows h st ->
  like h st (pick v (map (fun wt => (const_value L h0 s (fst wt), compile (snd wt))) ifs) (compile els) h) (sem_cases (Some v) els ifs st).
Proof.
  intros v els ifs h st Hl He H Hs Hsh. revert Hl H. induction ifs as [|[w a] ifs IH]; intros Hl H; [exact (He h st Hs Hsh)|]. cbn [map fst forallb] in Hl. apply andb_prop in Hl. destruct Hl as [Hw Hl].
  apply Forall_cons_iff in H. destruct H as [Ha H]. destruct w as [u|?|?|?|?|?|?|?|?]; try discriminate. cbn [map fst snd const_value pick sem_cases Assign_Spec.sem]. rewrite Heq.
  destruct (v_same L u v); [exact (Ha h st Hs Hsh)|now apply IH].
Qed.

Lemma consts_map : forall ifs : list (sexpr V * sexpr V), forallb (fun wt => is_const (fst wt)) ifs = forallb (@constant V) (map fst ifs).
Proof. induction ifs as [|wt ifs IH]; [reflexivity|]. cbn [forallb map]. rewrite IH. reflexivity. Qed.
Lemma plain_agrees : forall e, plain L e -> agrees e.
Proof.
  induction e as [v|n|x|x e IH|f l IH|c a b IHc IHa IHb|a b IHa IHb|a l IHa IHl|this ifs els IHt IHi IHe] using sexpr_ind'; intros H h st Hs Hsh; cbn [plain] in H.
  - split; [reflexivity|]. split; [apply kept_refl|exact Hsh].
  - split; [reflexivity|]. split; [apply kept_refl|exact Hsh].
  - split; [exact (Hsh x H)|]. split; [apply kept_refl|exact Hsh].
  - destruct H as [Hx He]. cbn [Assign_Model.compile Assign_Model.ev Assign_Spec.sem]. destruct (IH He h st Hs Hsh) as (A & B & C).
    destruct (ev (compile e) h) as [v h1], (sem e st) as [v' st1]. cbn [fst snd] in A, B, C. subst v'.
    split; [reflexivity|]. cbn [snd]. split; [exact (kept_trans B (var_set_kept _ _ _))|]. apply var_set_shows; [rewrite (proj1 B); exact Hs|exact C|exact Hx].
  - assert (Hl : Forall agrees l).
    { clear - H IH. induction IH as [|a l Ha Hl IHl]; [constructor|]. destruct H as [H1 H2]. constructor; [now apply Ha|now apply IHl]. }
    cbn [Assign_Model.compile]. rewrite ev_call, sem_call. destruct (agrees_list Hl Hs Hsh) as (A & B & C). destruct (columns (map compile l) r h) as [vs h1], (sem_items l st) as [vs' st1].
    cbn [fst snd] in A, B, C. subst vs'. split; [reflexivity|]. now split.
  - destruct H as (Hc & Ha & Hb). cbn [Assign_Model.compile Assign_Spec.sem]. rewrite ev_if. destruct (IHc Hc h st Hs Hsh) as (A & B & C).
    destruct (ev (compile c) h) as [v h1], (sem c st) as [v' st1]. cbn [fst snd] in A, B, C. subst v'. assert (Hs1 : s < length h1) by (rewrite (proj1 B); exact Hs).
    apply (like_kept B). destruct (v_true L v); [exact (IHa Ha h1 st1 Hs1 C)|exact (IHb Hb h1 st1 Hs1 C)].
  - destruct H as (Hr & Ha & Hb). cbn [Assign_Model.compile Assign_Spec.sem]. rewrite ev_if, ev_isnull. destruct (IHa Ha h st Hs Hsh) as (A & _). destruct (proj1 (reads_still a Hr) h) as [v E]. destruct (proj2 (reads_still a Hr) st) as [v' E'].
    rewrite E, E' in *. cbn [fst] in A. subst v'. rewrite Htest. destruct (v_isnull L v); [exact (IHb Hb h st Hs Hsh)|]. rewrite E. split; [reflexivity|]. split; [apply kept_refl|exact Hsh].
  - destruct H as (Hr & Ha & Hl). cbn [Assign_Model.compile]. rewrite sem_coalesce, ev_if, ev_isnull. destruct (IHa Ha h st Hs Hsh) as (A & _). destruct (proj1 (reads_still a Hr) h) as [v E]. destruct (proj2 (reads_still a Hr) st) as [v' E'].
    rewrite E, E' in *. cbn [fst] in A. subst v'. rewrite Htest. destruct (v_isnull L v).
    + assert (Hg : Forall agrees l).
      { clear - Hl IHl. induction IHl as [|b l Hb Hl' IH]; [constructor|]. destruct Hl as (_ & H1 & H2). constructor; [now apply Hb|now apply IH]. }
      now apply agrees_first.
    + rewrite E. split; [reflexivity|]. split; [apply kept_refl|exact Hsh].
  - destruct H as (Ht & Hi & He). specialize (IHe He).
    assert (Hl : Forall (fun wt => agrees (fst wt) /\ agrees (snd wt)) ifs).
    { clear - Hi IHi. induction IHi as [|[w a] l [Hw Ha] Hl IH]; [constructor|]. destruct Hi as (H1 & H2 & H3). constructor; [split; [now apply Hw|now apply Ha]|now apply IH]. }
    cbn [Assign_Model.compile]. destruct this as [e|].
    + destruct Ht as (Hpe & Hc & Hn). rewrite sem_case_some, consts_map. destruct (IHt Hpe h st Hs Hsh) as (A & B & C). destruct (forallb (@constant V) (map fst ifs)) eqn:Ec.
      * destruct (Hc eq_refl) as [C1 C2]. rewrite ev_dict. rewrite (dict_literals ifs [] C1 C2) by (intros k a wt v []). cbn [app].
        destruct (ev (compile e) h) as [v h1], (sem e st) as [v' st1]. cbn [fst snd] in A, B, C. subst v'. apply (like_kept B).
        apply pick_cases; auto; [|rewrite (proj1 B); exact Hs]. rewrite Forall_forall in *. intros wt Hw. apply (Hl wt Hw).
      * destruct (Hn eq_refl) as [N1 N2]. destruct (proj1 (reads_still e N1) h) as [v E]. destruct (proj2 (reads_still e N1) st) as [v' E']. rewrite E, E' in A. cbn [fst] in A. subst v'. rewrite E'.
        apply (@agrees_cases (Some e) els N1 IHe ifs Hl); [|exact Hs|exact Hsh|exists v; split; [exact E|reflexivity]]. intros e2 Ee. injection Ee as <-. exact N2.
    + rewrite sem_case_none. apply (@agrees_cases None els I IHe ifs Hl); auto. intros e' Ee. discriminate.
Qed.
End Proofs.

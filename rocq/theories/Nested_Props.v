(** C192, C193: subqueries in expressions are calls. *)
From Coq Require Import Lia.
From Verif Require Import Base Agg_Model Env_Model Env_Props Nested_Syntax Nested_Model Nested_Spec Nested_Proofs.
Open Scope nat_scope.

Section Props.
Variables V R : Type.
Variable null : V.
Variable alloc : list nat -> nat -> nat.
(** Objects in use have different ids; an id can be given again when its object is gone. *)
Hypothesis fresh : forall l n, ~ In (alloc l n) l.
Notation state := (state V R).

Lemma statements_meaning : forall l (st : state) ex rest e, Forall (@named_all V R) l -> good null st ex rest e -> clean st ->
  (forall q o, removelast l = q -> In o (fst (meanings q e)) -> snd o = true) ->
  let (os, st') := statements V R null alloc l st in
  os = fst (meanings l e) /\ good null st' ex rest (snd (meanings l e)) /\ kept (e_scope ex) (s_vars st) (s_vars st').
Proof.
  induction l as [|p l IH]; intros st ex rest e Hn Hg Hc Hok; [cbn [statements meanings fst snd]; split; [reflexivity|]; split; [exact Hg|apply kept_refl; exact (proj1 (proj2 (proj2 Hg)))]|].
  apply Forall_cons_iff in Hn. destruct Hn as [Hp Hn]. cbn [statements]. destruct Hg as (G1 & G2 & G3 & G4). rewrite G1. set (st0 := State (s_vars st) (table_set R (s_tables st) (e_id ex) []) (ex :: rest) (s_given st)).
  assert (Hc0 : clean st0).
  { intros j Hj. unfold st0, live in *. cbn [s_current s_tables map] in *. unfold table_set. destruct (Nat.eqb j (e_id ex)); [reflexivity|]. apply Hc. unfold live. now rewrite G1. }
  assert (H := @run_meaning V R null alloc fresh p st0 ex rest e Hp (conj eq_refl (conj G2 (conj G3 G4))) Hc0).
  destruct (run V R null alloc p st0) as [st1 ok]. cbn [meanings]. destruct (meaning p e) as [[rs ok'] e1] eqn:Em. destruct H as (A & B & C & D & F). subst ok'.
  assert (Ht : s_tables st1 (e_id ex) = rs) by (rewrite D; unfold st0; cbn [s_tables]; unfold table_set; now rewrite Nat.eqb_refl).
  destruct l as [|p2 l].
  - cbn [statements meanings fst snd]. rewrite Ht. split; [reflexivity|]. split; [exact B|exact C].
  - assert (Hrl : removelast (p :: p2 :: l) = p :: removelast (p2 :: l)) by reflexivity.
    assert (Hok1 : ok = true).
    { assert (X := Hok _ (rs, ok) Hrl). apply X. cbn [meanings]. rewrite Em. destruct (meanings (removelast (p2 :: l)) e1). now left. }
    assert (Hc1 : clean st1).
    { intros j Hj. rewrite F; [|intros ->|now left].
      - apply Hc0. unfold live in *. rewrite (proj1 B) in Hj. unfold st0. exact Hj.
      - apply Hj. unfold live. rewrite (proj1 B). now left. }
    specialize (IH st1 ex rest e1 Hn B Hc1). destruct (statements V R null alloc (p2 :: l) st1) as [os st2]. destruct IH as (A' & B' & C').
    + intros q o Hq Ho. apply (Hok _ o Hrl). cbn [meanings]. rewrite Em. rewrite Hq. destruct (meanings q e1). now right.
    + destruct (meanings (p2 :: l) e1) as [os' e2]. cbn [fst snd] in *. subst os'. rewrite Ht. split; [reflexivity|]. split; [exact B'|exact (kept_trans C C')].
Qed.

(** C192: statements with subqueries in their expressions, nested to any depth, run one after the other until one fails: each gives the rows
    and the variables that the calls mean, in whatever way ids are given again; the variables of other executors are as before, and the
    executor of the statements is the current one again. *)
Theorem nested_calls : forall h s i n l p e,
  (forall j c q, nth_error h j = Some c -> sparent V c = Some q -> q < j) -> s < length h -> (forall y, named y -> get V h s (64%N :: y) null = e y) ->
  Forall (@named_all V R) (l ++ [p]) -> (forall o, In o (fst (meanings l e)) -> snd o = true) ->
  let (os, st') := statements V R null alloc (l ++ [p]) (State h (fun _ => []) [Executor s i] n) in
  os = fst (meanings (l ++ [p]) e) /\ (forall y, named y -> get V (s_vars st') s (64%N :: y) null = snd (meanings (l ++ [p]) e) y) /\
  (forall j, j < length h -> j <> s -> nth_error (s_vars st') j = nth_error h j) /\ s_current st' = [Executor s i].
Proof.
  intros h s i n l p e Ho Hs Hv Hn Hok.
  assert (H := statements_meaning (l ++ [p]) (State h (fun _ => []) [Executor s i] n) (Executor s i) [] e Hn (conj eq_refl (conj Hs (conj Ho Hv))) (fun j _ => eq_refl)).
  rewrite removelast_last in H. specialize (H (fun q o Hq Hi => Hok o (eq_rect_r (fun q => In o (fst (meanings q e))) Hi Hq))).
  destruct (statements V R null alloc (l ++ [p]) _) as [os st']. destruct H as (A & (B1 & B2 & B3 & B4) & C). split; [exact A|]. split; [exact B4|]. split; [exact (proj2 (proj2 C))|exact B1].
Qed.
End Props.
Print Assumptions nested_calls.

(** A way of giving ids: one more than all ids in use, so that ids are given again. *)
Definition next_id (l : list nat) (_ : nat) : nat := S (fold_right Nat.max 0 l).
Lemma next_fresh : forall l n, ~ In (next_id l n) l.
Proof.
  intros l n H. assert (Hle : forall x, In x l -> x <= fold_right Nat.max 0 l).
  { clear. induction l as [|y l IH]; intros x Hx; [destruct Hx|]. cbn [fold_right]. destruct Hx as [->|Hx]; [lia|]. specialize (IH x Hx). lia. }
  specialize (Hle _ H). unfold next_id in Hle. lia.
Qed.
Fixpoint emit_all (l : list nat) (p : prog nat nat) : prog nat nat := match l with [] => p | r :: l => Emit r (emit_all l p) end.
(** A query that calls a subquery with a condition, which reads a variable of the query around, assigns it, and calls another one. *)
Definition sample : prog nat nat :=
  Put (t "x") 7 (Sub [(t "eq", [(Some (t "k"), 3); (None, 9)]); (t "in", [(Some (t "k"), 4)])]
    (Get (t "x") (fun x => Get (t "k") (fun k => Put (t "x") 50 (Emit x (Sub [] (Emit 1 (Emit 2 Done)) (fun rs => emit_all rs (Emit k Done)))))))
    (fun rs => emit_all rs (Get (t "x") (fun x => Emit x Done)))).
Example sample_run : fst (statements nat nat 0 next_id [sample; sample] (State [mkscope nat None []] (fun _ => []) [Executor 0 0] 0)) = [([7; 1; 2; 4; 7], true); ([7; 1; 2; 4; 7], true)].
Proof. reflexivity. Qed.
Example sample_meets : Forall (@named_all nat nat) ([sample] ++ [sample]) /\ (forall o, In o (fst (meanings [sample] (fun _ => 0))) -> snd o = true) /\
  (forall j c q, nth_error [mkscope nat None []] j = Some c -> sparent nat c = Some q -> q < j) /\ (forall y, named y -> get nat [mkscope nat None []] 0 (64%N :: y) 0 = 0).
Proof.
  assert (Hx : named (t "x")) by (intros y E; discriminate). assert (Hk : named (t "k")) by (intros y E; discriminate).
  assert (He : forall l p, named_all p -> named_all (emit_all l p)) by (induction l; intros p Hp; [exact Hp|cbn [emit_all named_all]; now apply IHl]).
  assert (Hs : named_all sample).
  { unfold sample. cbn [named_all]. split; [exact Hx|]. split.
    - split; [exact Hx|]. intros x. split; [exact Hk|]. intros k. split; [exact Hx|]. split; [exact I|]. intros rs. apply He. exact I.
    - intros rs. apply He. cbn [named_all]. split; [exact Hx|]. intros _. exact I. }
  split; [constructor; [exact Hs|constructor; [exact Hs|constructor]]|]. split; [intros o [<-|[]]; reflexivity|]. split; [intros [|[|j]] c q E Ep; cbn in E; try discriminate; injection E as <-; discriminate|].
  intros y Hy. reflexivity.
Qed.

(** C193, refuted: what a subquery had given before it failed stays in its table; a later subquery whose executor gets the same id returns it. *)
Theorem failed_subquery_leaves_rows_refuted :
  ~ (forall l, Forall (@named_all nat nat) l ->
       fst (statements nat nat 0 next_id l (State [mkscope nat None []] (fun _ => []) [Executor 0 0] 0)) = fst (meanings l (fun _ => 0))).
Proof.
  intros H. specialize (H [Sub [] (Emit 1 Fail) (fun _ => Done); Sub [] Done (fun rs => emit_all rs Done)]).
  assert (He : forall l, named_all (emit_all l Done)) by (induction l; [exact I|exact IHl]).
  specialize (H ltac:(constructor; [cbn; auto|constructor; [cbn; auto|constructor]])). discriminate H.
Qed.
Print Assumptions failed_subquery_leaves_rows_refuted.

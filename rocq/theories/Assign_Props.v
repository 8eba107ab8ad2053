(** C189-C191: assignments to variables in a select list. *)
From Coq Require Import Lia.
From Verif Require Import Base Agg_Model Env_Model Env_Props Assign_Syntax Assign_Model Assign_Spec Assign_Proofs.
Open Scope nat_scope.

Section Props.
Variable V : Type.
Variable L : values V.
Variable null_test : bool -> V.
(** What is_null of the package returns counts as true exactly for NULL; the equality of the dict of a simple CASE is that of the operator. *)
Hypothesis Htest : forall b, v_true L (null_test b) = b.
Hypothesis Heq : forall a b, v_true L (v_fn L (t "eq") [a; b]) = v_same L b a.

(** C189: the rows are computed one after the other, the items from left to right, each operand once; whatever the statement assigns is seen by the
    reads after it and after the statement; the variables of other executors are untouched.  [h0] are the variables when the statement is
    compiled, [h] when it is run. *)
Theorem select_assignments : forall items h0 s rows h st,
  s < length h -> (forall x, named x -> var_get L h s x = st x) -> Forall (plain L) items ->
  let (out, h') := select L s null_test h0 items rows h in
  let (out', st') := sem_rows L items rows st in
  out = out' /\ (forall x, named x -> var_get L h' s x = st' x) /\ (forall p, p <> s -> nth_error h' p = nth_error h p).
Proof.
  intros items h0 s rows h st Hs Hsh Hp.
  assert (Hag : forall r, Forall (agrees L null_test s h0 r) items).
  { intros r. rewrite Forall_forall in *. intros e He. apply plain_agrees; auto. }
  assert (H : fst (rows_of L s null_test (map (compile L h0 s) items) rows h) = fst (sem_rows L items rows st) /\
            kept s h (snd (rows_of L s null_test (map (compile L h0 s) items) rows h)) /\
            shows L s (snd (rows_of L s null_test (map (compile L h0 s) items) rows h)) (snd (sem_rows L items rows st))).
  { revert h st Hs Hsh. induction rows as [|r rows IH]; intros h st Hs Hsh; [split; [reflexivity|]; split; [apply kept_refl|exact Hsh]|].
    cbn [rows_of sem_rows]. destruct (agrees_list (Hag r) Hs Hsh) as (A & B & C). destruct (columns L s null_test (map (compile L h0 s) items) r h) as [o h1], (sem_items L r items st) as [o' st1].
    cbn [fst snd] in A, B, C. subst o'. destruct (IH h1 st1) as (A' & B' & C'); [rewrite (proj1 B); exact Hs|exact C|].
    destruct (rows_of L s null_test (map (compile L h0 s) items) rows h1) as [os h2], (sem_rows L items rows st1) as [os' st2]. cbn [fst snd] in *. subst os'.
    split; [reflexivity|]. split; [exact (kept_trans B B')|exact C']. }
  unfold select. destruct (rows_of L s null_test (map (compile L h0 s) items) rows h) as [out h'], (sem_rows L items rows st) as [out' st']. cbn [fst snd] in H. destruct H as (A & B & C).
  split; [exact A|]. split; [exact C|exact (proj2 B)].
Qed.

(** C190: a running value: SELECT @x := f(@x, a) gives for each row the value computed from all rows up to it, and leaves the last one in @x. *)
Theorem running_value : forall x f a h0 s rows h, s < length h -> named x ->
  let acc := fun l => fold_left (fun v (r : row V) => v_fn L f [v; r a]) l (var_get L h s x) in
  let (out, h') := select L s null_test h0 [SAssign x (SCall f [SVar x; SCol a])] rows h in
  (forall n, n < length rows -> nth_error out n = Some [acc (firstn (S n) rows)]) /\ length out = length rows /\
  var_get L h' s x = acc rows.
Proof.
  intros x f a h0 s rows h Hs Hx acc.
  assert (Hp : Forall (plain L) [SAssign x (SCall f [SVar x; SCol a])]) by (repeat constructor; auto).
  assert (H := select_assignments _ h0 s rows h (fun y => var_get L h s y) Hs (fun y _ => eq_refl) Hp).
  destruct (select L s null_test h0 [SAssign x (SCall f [SVar x; SCol a])] rows h) as [out h'].
  assert (Hsem : forall rows st, let (out', st') := sem_rows L [SAssign x (SCall f [SVar x; SCol a])] rows st in
            length out' = length rows /\ st' x = fold_left (fun v (r : row V) => v_fn L f [v; r a]) rows (st x) /\
            forall n, n < length rows -> nth_error out' n = Some [fold_left (fun v (r : row V) => v_fn L f [v; r a]) (firstn (S n) rows) (st x)]).
  { clear. induction rows as [|r rows IH]; intros st; [split; [reflexivity|]; split; [reflexivity|]; cbn [length]; lia|].
    cbn [sem_rows sem_items sem]. specialize (IH (assign st x (v_fn L f [st x; r a]))).
    destruct (sem_rows L [SAssign x (SCall f [SVar x; SCol a])] rows (assign st x (v_fn L f [st x; r a]))) as [out' st']. destruct IH as (A & B & C).
    assert (E : assign st x (v_fn L f [st x; r a]) x = v_fn L f [st x; r a]) by (unfold assign; now rewrite text_eqb_refl). rewrite E in B, C.
    split; [cbn [length]; congruence|]. split; [exact B|]. intros [|n] Hn; [reflexivity|]. cbn [nth_error]. rewrite C by (cbn [length] in Hn; lia). reflexivity. }
  specialize (Hsem rows (fun y => var_get L h s y)). destruct (sem_rows L [SAssign x (SCall f [SVar x; SCol a])] rows (fun y => var_get L h s y)) as [out' st'].
  destruct H as (-> & B & _). destruct Hsem as (C & D & E). split; [exact E|]. split; [exact C|]. rewrite (B x Hx). exact D.
Qed.
End Props.
Print Assumptions select_assignments.
Print Assumptions running_value.

(** Integers, 0 is false, -1 stands for NULL. *)
Definition ints : values Z :=
  {| v_fn := fun f l => match l with
                        | [a; b] => if text_eqb f (t "eq") then (if Z.eqb a b then 1 else 0)%Z else (a + b)%Z
                        | _ => 0%Z
                        end;
     v_true := fun v => negb (Z.eqb v 0); v_isnull := Z.eqb (-1); v_null := (-1)%Z; v_same := Z.eqb |}.
Definition test (b : bool) : Z := if b then 1%Z else 0%Z.
Lemma ints_test : forall b, v_true ints (test b) = b. Proof. now intros []. Qed.
Lemma ints_eq : forall a b, v_true ints (v_fn ints (t "eq") [a; b]) = v_same ints b a.
Proof. intros a b. cbn [ints v_fn v_true v_same]. change (text_eqb (t "eq") (t "eq")) with true. cbv iota. rewrite (Z.eqb_sym b a). now destruct (Z.eqb a b). Qed.
Definition at_n : Env_Model.heap Z := [mkscope Z None [(t "@n", 5%Z)]].
Definition amounts : list (row Z) := [fun _ => 10%Z; fun _ => 20%Z; fun _ => 30%Z].

(** Two items: a running count, and a value that uses what the first has assigned in the same row; the second has a CASE with literals. *)
Example counter_and_case :
  select ints 0 test at_n [SAssign (t "n") (SCall (t "add") [SVar (t "n"); SConst 1%Z]);
                           SCase (Some (SVar (t "n"))) [(SConst 6%Z, SConst 100%Z); (SConst 7%Z, SAssign (t "m") (SCol (t "a")))] (SIfNull (SVar (t "m")) (SConst 0%Z))] amounts at_n
  = ([[6%Z; 100%Z]; [7%Z; 20%Z]; [8%Z; 20%Z]], [mkscope Z None [(t "@n", 8%Z); (t "@m", 20%Z)]]).
Proof. reflexivity. Qed.
Example counter_plain : Forall (plain ints)
  [SAssign (t "n") (SCall (t "add") [SVar (t "n"); SConst 1%Z]);
   SCase (Some (SVar (t "n"))) [(SConst 6%Z, SConst 100%Z); (SConst 7%Z, SAssign (t "m") (SCol (t "a")))] (SIfNull (SVar (t "m")) (SConst 0%Z))].
Proof.
  assert (Hn : named (t "n")) by (intros y E; discriminate). assert (Hm : named (t "m")) by (intros y E; discriminate).
  constructor; [cbn; tauto|]. constructor; [|constructor]. cbn [plain map fst snd]. split; [|repeat split; auto]. split; [exact Hn|]. split; [|discriminate]. intros _. split; [reflexivity|].
  split; [|split; [intros v e' v' _ []|exact I]]. intros v e' v' E1 [<-|[]] E2. assert (v = 6%Z) by congruence. assert (v' = 7%Z) by congruence. now subst.
Qed.
(** The running total of C190. *)
Example running_total : select ints 0 test at_n [SAssign (t "n") (SCall (t "add") [SVar (t "n"); SCol (t "a")])] amounts at_n
  = ([[15%Z]; [35%Z]; [65%Z]], [mkscope Z None [(t "@n", 65%Z)]]).
Proof. reflexivity. Qed.

(** C191, refuted: an assignment in the first operand of IFNULL is made twice, and a variable in a WHEN of a simple CASE has the value of the
    time at which the statement was compiled. *)
Theorem assignment_once_refuted :
  ~ (forall items rows h st, (forall x, named x -> var_get ints h 0 x = st x) -> 0 < length h ->
       fst (select ints 0 test h items rows h) = fst (sem_rows ints items rows st)).
Proof.
  intros H. specialize (H [SIfNull (SAssign (t "n") (SCall (t "add") [SVar (t "n"); SConst 1%Z])) (SConst 0%Z)] [fun _ => 0%Z] at_n (fun x => var_get ints at_n 0 x) (fun x _ => eq_refl)).
  specialize (H ltac:(cbn; lia)). discriminate H.
Qed.
Theorem case_when_variable_refuted :
  ~ (forall items h0 rows h st, forallb (@reads_only Z) items = true -> (forall x, named x -> var_get ints h 0 x = st x) -> 0 < length h ->
       fst (select ints 0 test h0 items rows h) = fst (sem_rows ints items rows st)).
Proof.
  intros H. specialize (H [SCase (Some (SCol (t "a"))) [(SVar (t "n"), SConst 1%Z)] (SConst 0%Z)] [mkscope Z None []] [fun _ => 5%Z] at_n (fun x => var_get ints at_n 0 x) eq_refl (fun x _ => eq_refl)).
  specialize (H ltac:(cbn; lia)). discriminate H.
Qed.
Print Assumptions assignment_once_refuted.
Print Assumptions case_when_variable_refuted.

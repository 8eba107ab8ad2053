(** C31 scheduling of statements, C42 execution contexts. *)
From Verif Require Import Base Exec_Model Exec_Spec.

Section Props.
Variables World Stmt Runner Exn : Type.
Variable start : Stmt -> World -> World * (list Runner * option Exn).
Variable perform : Runner -> World -> World * (list Runner * option Exn).
Notation run := (run World Stmt Runner Exn start).
Notation execute := (execute World Stmt Runner Exn perform).
Notation api_execute := (api_execute World Stmt Runner Exn start perform).
Notation state := (state World Stmt Runner).

(** What a call recorded. *)
Definition as_ran (x : Runner * list Runner) : call Stmt Runner := Ran (fst x) (snd x).
Definition as_started (x : Stmt * list Runner) : call Stmt Runner := Started (fst x) (snd x).

(** Whatever statements and runners do, and wherever a failure happens, runners are run first in, first out, each queued
    runner once per time it was queued, none lost and none invented. *)
Theorem execute_fifo : forall fuel st st' o, execute fuel st = (st', o) ->
  exists ran, calls st' = calls st ++ map as_ran ran /\
    fifo (queue st) (map fst ran) (concat (map snd ran)) (queue st') /\
    (o = Done -> queue st' = []) /\ (o = Running -> length ran = fuel /\ queue st' <> []).
Proof.
  induction fuel as [|f IH]; intros st st' o E; cbn [Exec_Model.execute] in E; destruct (queue st) as [|r q] eqn:Q.
  - injection E as <- <-. exists []. rewrite Q. cbn. rewrite app_nil_r. repeat split; try discriminate.
  - injection E as <- <-. exists []. rewrite Q. cbn. unfold fifo. rewrite !app_nil_r. repeat split; try discriminate.
  - injection E as <- <-. exists []. rewrite Q. cbn. rewrite app_nil_r. repeat split; try discriminate.
  - destruct (perform r (world st)) as [w [added e]]. destruct e as [e|].
    + injection E as <- <-. exists [(r, added)]. unfold fifo. cbn. rewrite !app_nil_r. repeat split; try discriminate.
    + apply IH in E. destruct E as (ran & E1 & E2 & E3 & E4). cbn [calls queue] in *. exists ((r, added) :: ran).
      split; [rewrite E1, <- app_assoc; reflexivity|]. split; [|split; [exact E3|]].
      * unfold fifo in *. cbn. rewrite E2, <- app_assoc. reflexivity.
      * intro X. destruct (E4 X) as [L NE]. cbn. split; [lia|exact NE].
Qed.

(** Statements are started once each, in order, up to and including the first that fails; what they queue is queued in order. *)
Theorem run_in_order : forall sqls st st' o, run sqls st = (st', o) ->
  exists started rest, sqls = map fst started ++ rest /\ calls st' = calls st ++ map as_started started /\
    queue st' = queue st ++ concat (map snd started) /\
    ((o = Done /\ rest = []) \/ exists e s w added, o = Raised e /\ last (map Some started) None = Some (s, added) /\ start s w = (world st', (added, Some e))).
Proof.
  induction sqls as [|s sqls IH]; intros st st' o E; cbn [Exec_Model.run] in E.
  - injection E as <- <-. exists [], []. cbn. rewrite !app_nil_r. repeat split. left. split; reflexivity.
  - destruct (start s (world st)) as [w [added e]] eqn:S0. destruct e as [e|].
    + injection E as <- <-. exists [(s, added)], sqls. cbn. rewrite app_nil_r. repeat split. right. exists e, s, (world st), added. repeat split. exact S0.
    + apply IH in E. destruct E as (started & rest & E1 & E2 & E3 & E4). cbn [calls queue] in *. exists ((s, added) :: started), rest.
      split; [cbn; congruence|]. split; [rewrite E2, <- app_assoc; reflexivity|]. split; [rewrite E3, <- app_assoc; reflexivity|].
      destruct E4 as [E4|E4]; [left; exact E4|right]. destruct E4 as (e & s' & w' & a' & X1 & X2 & X3). exists e, s', w', a'. split; [exact X1|]. split; [|exact X3].
      cbn [map last]. destruct started as [|x l]; [discriminate X2|exact X2].
Qed.

(** A script that completes: every statement is started once, in order, before anything is run; then exactly the runners
    that were waiting and those the statements queued are run, in order (and those they add in turn, e.g. when streaming). *)
Theorem script_order : forall fuel sqls st st', api_execute fuel sqls st = (st', Done) ->
  exists started ran, map fst started = sqls /\ calls st' = calls st ++ map as_started started ++ map as_ran ran /\
    fifo (queue st ++ concat (map snd started)) (map fst ran) (concat (map snd ran)) [] /\ queue st' = [].
Proof.
  intros fuel sqls st st' E. unfold Exec_Model.api_execute in E. destruct (run sqls st) as [st1 o1] eqn:R.
  destruct (run_in_order _ _ _ _ R) as (started & rest & E1 & E2 & E3 & E4).
  destruct o1 as [|e|]; [|discriminate E|discriminate E].
  destruct E4 as [[_ ->]|(e & s & w & a & X & _)]; [|discriminate X].
  destruct (execute_fifo _ _ _ _ E) as (ran & F1 & F2 & F3 & _). exists started, ran.
  split; [rewrite E1, app_nil_r; reflexivity|]. split; [rewrite F1, E2, <- app_assoc; reflexivity|].
  specialize (F3 eq_refl). rewrite F3, E3 in F2. split; assumption.
Qed.
(** In particular, when runners do not queue further runners: exactly once each. *)
Theorem script_exactly_once : forall fuel sqls st st', (forall r w, fst (snd (perform r w)) = []) -> queue st = [] ->
  api_execute fuel sqls st = (st', Done) ->
  exists started, map fst started = sqls /\
    calls st' = calls st ++ map as_started started ++ map (fun r => Ran r []) (concat (map snd started)).
Proof.
  intros fuel sqls st st' NA Q E. unfold Exec_Model.api_execute in E. destruct (run sqls st) as [st1 o1] eqn:R.
  destruct (run_in_order _ _ _ _ R) as (started & rest & E1 & E2 & E3 & E4).
  destruct o1 as [|e|]; [|discriminate E|discriminate E].
  destruct E4 as [[_ ->]|(e & s & w & a & X & _)]; [|discriminate X]. exists started. split; [rewrite E1, app_nil_r; reflexivity|].
  assert (G : forall f s s', execute f s = (s', Done) -> calls s' = calls s ++ map (fun r => Ran r []) (queue s)).
  { clear - NA. induction f as [|f IH]; intros s s' E; cbn [Exec_Model.execute] in E; destruct (queue s) as [|r q] eqn:Q; try discriminate E;
      try (injection E as <-; rewrite app_nil_r; reflexivity).
    specialize (NA r (world s)). destruct (perform r (world s)) as [w [added e]]. cbn in NA. subst added. destruct e; [discriminate E|].
    apply IH in E. cbn [calls queue] in E. rewrite app_nil_r in E. rewrite E, <- app_assoc. reflexivity. }
  rewrite (G _ _ _ E), E2, E3, Q, <- app_assoc. reflexivity.
Qed.

(** After a failure the runners not reached stay queued ... *)
Theorem failure_leaves_queue : forall fuel sqls st st' e, api_execute fuel sqls st = (st', Raised e) ->
  exists started ran, (exists rest, sqls = map fst started ++ rest) /\ calls st' = calls st ++ map as_started started ++ map as_ran ran /\
    fifo (queue st ++ concat (map snd started)) (map fst ran) (concat (map snd ran)) (queue st').
Proof.
  intros fuel sqls st st' e E. unfold Exec_Model.api_execute in E. destruct (run sqls st) as [st1 o1] eqn:R.
  destruct (run_in_order _ _ _ _ R) as (started & rest & E1 & E2 & E3 & E4). exists started.
  destruct o1 as [|e1|]; [| |discriminate E].
  - destruct (execute_fifo _ _ _ _ E) as (ran & F1 & F2 & _ & _). exists ran. split; [exists rest; exact E1|].
    split; [rewrite F1, E2, <- app_assoc; reflexivity|]. rewrite <- E3. exact F2.
  - injection E as <- <-. exists []. split; [exists rest; exact E1|]. cbn. split; [rewrite E2, app_nil_r; reflexivity|]. unfold fifo. cbn. rewrite app_nil_r. exact E3.
Qed.
(** ... and are run, before anything else, by the next script. *)
Theorem leftovers_run_next : forall fuel sqls st st' r q, queue st = r :: q -> (1 <= fuel)%nat ->
  run sqls st = (st', Done) -> exists started, calls st' = calls st ++ map as_started started /\
    exists added more, calls (fst (api_execute fuel sqls st)) = calls st ++ map as_started started ++ Ran r added :: more.
Proof.
  intros fuel sqls st st' r q Q L R. destruct (run_in_order _ _ _ _ R) as (started & rest & E1 & E2 & E3 & _). exists started. split; [exact E2|].
  unfold Exec_Model.api_execute. rewrite R. destruct (execute fuel st') as [st2 o2] eqn:X. cbn [fst].
  destruct (execute_fifo _ _ _ _ X) as (ran & F1 & F2 & F3 & F4). rewrite E3, Q in F2. unfold fifo in F2.
  destruct ran as [|[r1 a1] ran].
  - exfalso. cbn in F2. destruct o2 as [|e|]; [rewrite (F3 eq_refl) in F2; discriminate F2| |destruct (F4 eq_refl) as [F5 _]; cbn in F5; lia].
    destruct fuel as [|f]; [lia|]. cbn [Exec_Model.execute] in X. rewrite E3, Q in X. cbn [app] in X.
    destruct (perform r (world st')) as [w [ad [e'|]]].
    + injection X as <- <-. cbn [calls] in F1. cbn in F1. rewrite app_nil_r in F1. apply (f_equal (@length _)) in F1. rewrite app_length in F1. cbn in F1. lia.
    + destruct (execute_fifo _ _ _ _ X) as (ran2 & G1 & _). cbn [calls] in G1. rewrite G1 in F1. cbn in F1. apply (f_equal (@length _)) in F1.
      rewrite !app_length in F1. cbn in F1. lia.
  - cbn in F2. injection F2 as -> _. exists a1, (map as_ran ran). rewrite F1, E2. rewrite <- app_assoc. reflexivity.
Qed.

(** One statement after the other. *)
Fixpoint one_by_one (fuel : nat) (sqls : list Stmt) (st : state) : state * outcome Exn :=
  match sqls with
  | [] => (st, Done)
  | s :: rest => match api_execute fuel [s] st with (st', Done) => one_by_one fuel rest st' | other => other end
  end.

Definition effect_start (s : Stmt) (w : World) : World := fst (start s w).
Definition effect_run (r : Runner) (w : World) : World := fst (perform r w).
Lemma execute_all : forall q w c fuel, (forall r w, snd (perform r w) = ([], None)) -> (length q <= fuel)%nat ->
  exists c', execute fuel (mkstate w q c) = (mkstate (fold_left (fun w r => effect_run r w) q w) [] c', Done).
Proof.
  induction q as [|r q IH]; intros w c fuel H L.
  - exists c. destruct fuel; reflexivity.
  - cbn in L. destruct fuel as [|f]; [lia|]. cbn [Exec_Model.execute queue world calls fold_left]. unfold effect_run at 2. specialize (H r w) as Hr.
    destruct (perform r w) as [w' [ad e]]. cbn in Hr. injection Hr as -> ->. rewrite app_nil_r. cbn [fst]. apply IH; [exact H|lia].
Qed.
Lemma run_all : forall (runners : Stmt -> list Runner), (forall s w, snd (start s w) = (runners s, None)) -> forall sqls w q c,
  exists c', run sqls (mkstate w q c) = (mkstate (fold_left (fun w s => effect_start s w) sqls w) (q ++ concat (map runners sqls)) c', Done).
Proof.
  intros runners H. induction sqls as [|s sqls IH]; intros w q c.
  - exists c. cbn. rewrite app_nil_r. reflexivity.
  - cbn [Exec_Model.run world queue calls fold_left map concat]. unfold effect_start at 2. specialize (H s w) as Hs. destruct (start s w) as [w' [ad e]]. cbn in Hs. injection Hs as -> ->.
    rewrite app_assoc. apply IH.
Qed.

(** The result is that of running the statements one after the other, provided the start of each statement is independent of
    running the earlier ones. *)
Theorem batch_is_sequential : forall (runners : Stmt -> list Runner) fuel sqls w c,
  (forall s w, snd (start s w) = (runners s, None)) -> (forall r w, snd (perform r w) = ([], None)) ->
  ForallOrdPairs (fun s1 s2 => forall r, In r (runners s1) -> commute (effect_start s2) (effect_run r)) sqls ->
  (length (concat (map runners sqls)) <= fuel)%nat ->
  exists st1 st2, api_execute fuel sqls (mkstate w [] c) = (st1, Done) /\ one_by_one fuel sqls (mkstate w [] c) = (st2, Done) /\
    world st1 = world st2 /\ queue st1 = [] /\ queue st2 = [].
Proof.
  intros runners fuel sqls w c HS HR HC L.
  destruct (run_all runners HS sqls w [] c) as [c1 R1]. destruct (execute_all (concat (map runners sqls)) (fold_left (fun w s => effect_start s w) sqls w) c1 fuel HR L) as [c2 X1].
  exists (mkstate (fold_left (fun w r => effect_run r w) (concat (map runners sqls)) (fold_left (fun w s => effect_start s w) sqls w)) [] c2).
  assert (SEQ : forall sqls w c, (length (concat (map runners sqls)) <= fuel)%nat ->
     exists c', one_by_one fuel sqls (mkstate w [] c) = (mkstate (fold_left (fun w s => fold_left (fun w r => effect_run r w) (runners s) (effect_start s w)) sqls w) [] c', Done)).
  { clear - HS HR. induction sqls as [|s sqls IH]; intros w c L; [exists c; reflexivity|]. cbn [one_by_one fold_left].
    cbn [map concat] in L. rewrite app_length in L. unfold Exec_Model.api_execute.
    destruct (run_all runners HS [s] w [] c) as [c1 R1]. rewrite R1. cbn [app map concat fold_left]. rewrite app_nil_r.
    destruct (execute_all (runners s) (effect_start s w) c1 fuel HR) as [c2 X]; [lia|]. rewrite X. apply IH. lia. }
  destruct (SEQ sqls w c L) as [c3 S3].
  exists (mkstate (fold_left (fun w s => fold_left (fun w r => effect_run r w) (runners s) (effect_start s w)) sqls w) [] c3).
  split; [unfold Exec_Model.api_execute; rewrite R1; exact X1|]. split; [exact S3|]. split; [|split; reflexivity]. cbn [world].
  clear - HC. revert w. induction HC as [|s sqls FA HC IH]; intro w; [reflexivity|]. cbn [fold_left map concat]. rewrite fold_left_app.
  rewrite <- IH. f_equal.
  generalize (effect_start s w) as v. clear - FA. induction sqls as [|s2 sqls IH2]; intro v; [reflexivity|]. cbn [fold_left].
  inversion FA as [|x y H1 H2]; subst. rewrite (IH2 H2). f_equal.
  clear - H1. revert v. induction (runners s) as [|r rs IHr]; intro v; [reflexivity|]. cbn [fold_left].
  rewrite <- IHr by (intros r' I; apply H1; right; exact I). f_equal. first [apply (H1 r); left; reflexivity|symmetry; apply (H1 r); left; reflexivity].
Qed.
End Props.

(** ** Concrete statements: SET @k = v (assigns when started, taskers/set.py:9-30), SELECT @k (reads when run,
    compiler.py:1765), SELECT v INTO @k (assigns when run, taskers/into.py:20-68; NULL when started if new, 11-15),
    SELECT ${@k} (read when the statement is prepared, executor.py:146). *)
Inductive sql := SetVar (k : text) (v : Z) | SelectVar (k : text) | SelectInto (v : Z) (k : text) | SelectHole (k : text).
Inductive job := PrintVar (k : text) | Assign (k : text) (v : Z) | Print (v : option Z) | Fail.
Definition store : Type := list (text * option Z) * list (option Z).   (* variables, printed values *)
Definition readv (w : store) (k : text) : option Z := match assoc k (fst w) with Some v => v | None => None end.
Definition sql_start (s : sql) (w : store) : store * (list job * option unit) :=
  match s with
  | SetVar k v => (((k, Some v) :: fst w, snd w), ([], None))
  | SelectVar k => (w, ([PrintVar k], None))
  | SelectInto v k => ((match assoc k (fst w) with Some _ => fst w | None => (k, None) :: fst w end, snd w), ([Assign k v], None))
  | SelectHole k => (w, ([Print (readv w k)], None))
  end.
Definition job_run (j : job) (w : store) : store * (list job * option unit) :=
  match j with
  | PrintVar k => ((fst w, snd w ++ [readv w k]), ([], None))
  | Assign k v => (((k, Some v) :: fst w, snd w), ([], None))
  | Print v => ((fst w, snd w ++ [v]), ([], None))
  | Fail => (w, ([], Some tt))
  end.

(** A later SET is visible to earlier SELECTs of the same script, and an earlier SELECT ... INTO is not visible to a later ${...}. *)
Theorem batch_is_sequential_refuted :
  (let script := [SetVar (t "@a") 1; SelectVar (t "@a"); SetVar (t "@a") 2] in
   snd (world (fst (api_execute store sql job unit sql_start job_run 9 script (mkstate ([], []) [] [])))) = [Some 2%Z] /\
   snd (world (fst (one_by_one store sql job unit sql_start job_run 9 script (mkstate ([], []) [] [])))) = [Some 1%Z]) /\
  (let script := [SelectInto 7 (t "@a"); SelectHole (t "@a")] in
   snd (world (fst (api_execute store sql job unit sql_start job_run 9 script (mkstate ([], []) [] [])))) = [None] /\
   snd (world (fst (one_by_one store sql job unit sql_start job_run 9 script (mkstate ([], []) [] [])))) = [Some 7%Z]).
Proof. repeat split. Qed.

(** A script whose first statement fails when run: the second statement is not abandoned but run by the next script. *)
Definition bad_start (s : option sql) (w : store) : store * (list job * option unit) :=
  match s with Some s => sql_start s w | None => (w, ([Fail], None)) end.
Theorem abandoned_statement_refuted :
  let run1 := api_execute store (option sql) job unit bad_start job_run 9 [None; Some (SelectInto 5 (t "@a"))] (mkstate ([], []) [] []) in
  snd run1 = Raised tt /\
  let run2 := api_execute store (option sql) job unit bad_start job_run 9 [Some (SelectVar (t "@b"))] (fst run1) in
  snd run2 = Done /\ readv (world (fst run2)) (t "@a") = Some 5%Z /\ readv (world (fst run1)) (t "@a") = None.
Proof. repeat split. Qed.

(** The hypotheses of batch_is_sequential are met by scripts that do not reassign what they read. *)
Example ex_independent : ForallOrdPairs (fun s1 s2 => forall r, In r (match s1 with SelectVar k => [PrintVar k] | SelectInto v k => [Assign k v] | SelectHole k => [] | SetVar _ _ => [] end) ->
    commute (effect_start store sql job unit sql_start s2) (effect_run store job unit job_run r)) [SetVar (t "@a") 1; SelectVar (t "@a"); SetVar (t "@b") 2].
Proof.
  assert (N : forall w, readv ((t "@b", Some 2%Z) :: fst w, snd w) (t "@a") = readv w (t "@a")) by (intros [v o]; reflexivity).
  constructor; [|constructor; [|constructor; [constructor|constructor]]].
  - constructor; [intros r []|constructor; [intros r []|constructor]].
  - constructor; [|constructor]. intros r [<-|[]] [v o]. unfold effect_start, effect_run. cbn. reflexivity.
Qed.

(** ** Contexts *)
(** Code that enters an executor only from its parent and uses only the executor it is in. *)
Fixpoint nested (parent : nat -> option nat) (cur : option nat) (c : code) : Prop :=
  match c with
  | Nop | Throw => True
  | Use e => cur = Some e
  | With e body => cur = parent e /\ nested parent (Some e) body
  | Then a b => nested parent cur a /\ nested parent cur b
  end.
Theorem contexts_restore : forall parent c cur, nested parent cur c -> fst (go parent c cur) = cur.
Proof.
  intros parent c. induction c as [|e|e body IH|a IHa b IHb|]; intros cur H; cbn in *; try reflexivity.
  - congruence.
  - destruct H as [-> H]. destruct (go parent body (Some e)). reflexivity.
  - destruct H as [Ha Hb]. specialize (IHa cur Ha). destruct (go parent a cur) as [cur' ok]. cbn in IHa. subst cur'. destruct ok; [apply IHb, Hb|reflexivity].
Qed.
(** Inside the body the entered executor is current. *)
Theorem context_inside : forall parent e a b cur, nested parent (Some e) a -> snd (go parent a (Some e)) = true ->
  go parent (With e (Then a b)) cur = (parent e, snd (go parent b (Some e))).
Proof.
  intros parent e a b cur H Ok. cbn. pose proof (contexts_restore parent a (Some e) H) as R. destruct (go parent a (Some e)) as [c ok]. cbn in *. subst.
  destruct (go parent b (Some e)) as [c2 ok2]. reflexivity.
Qed.
(** A script file run inside a script file run inside a script (EXECUTE): executors 0 <- 1 <- 2. *)
Definition chain (e : nat) : option nat := match e with 0%nat => None | S e => Some e end.
Example ex_nested : nested chain None (With 0 (Then (Use 0) (With 1 (Then (Use 1) (Then (With 2 (Then (Use 2) Throw)) (Use 1)))))).
Proof. cbn. repeat split. Qed.
(** engine.execute called from a function used by a running script re-enters the same executor, and leaves none:
    the outer script's variables can no longer be read. A context's execute leaves the engine's executor current. *)
Theorem reentrant_execute_refuted : fst (go chain (With 0 Nop) (Some 0%nat)) = None.
Proof. reflexivity. Qed.
Theorem context_execute_refuted : fst (go chain (With 1 Nop) None) = Some 0%nat.
Proof. reflexivity. Qed.
(** with-blocks of contexts: leaving an inner one forgets the outer one. *)
Theorem nested_context_refuted : fst (go_context (With 1 Nop) (Some 0%nat)) = None.
Proof. reflexivity. Qed.
(** The current context is restored exactly when there was none. *)
Theorem context_restored_iff : forall e body cur, fst (go_context (With e body) cur) = cur <-> cur = None.
Proof. intros e body cur. cbn. destruct (go_context body (Some e)). cbn. split; congruence. Qed.

(** Task numbers: within one tree of executors every call gives a new number, 1, 2, 3, ... *)
Fixpoint numbers (parent : nat -> option nat) (depth : nat) (counters : nat -> nat) (callers : list nat) : list nat :=
  match callers with
  | [] => []
  | e :: r => let '(c, n) := distribute parent depth counters e in n :: numbers parent depth c r
  end.
Theorem task_numbers : forall parent depth r callers counters, (forall e, In e callers -> root parent depth e = r) ->
  numbers parent depth counters callers = seq (S (counters r)) (length callers).
Proof.
  intros parent depth r. induction callers as [|e es IH]; intros counters H; [reflexivity|].
  cbn [numbers distribute length seq]. rewrite (H e) by (left; reflexivity). f_equal. rewrite IH by (intros x I; apply H; right; exact I).
  rewrite Nat.eqb_refl. reflexivity.
Qed.
Example ex_numbers : numbers chain 5 (fun _ => 0%nat) [0; 2; 1; 2]%nat = [1; 2; 3; 4]%nat.
Proof. apply (task_numbers chain 5 0). cbn. intros e [<-|[<-|[<-|[<-|[]]]]]; reflexivity. Qed.

Print Assumptions execute_fifo.
Print Assumptions run_in_order.
Print Assumptions script_order.
Print Assumptions script_exactly_once.
Print Assumptions failure_leaves_queue.
Print Assumptions leftovers_run_next.
Print Assumptions batch_is_sequential.
Print Assumptions batch_is_sequential_refuted.
Print Assumptions abandoned_statement_refuted.
Print Assumptions contexts_restore.
Print Assumptions context_inside.
Print Assumptions context_restored_iff.
Print Assumptions task_numbers.

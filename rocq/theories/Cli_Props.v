(** C65: the process runs exactly the scripts it is given and tells by its exit code whether they succeeded.
    C66: commands of the prompt do not disturb each other. *)
From Verif Require Import Base Exec_Model Exec_Props Cli_Model.
Open Scope nat_scope.

Section P.
Variables World Stmt Runner : Type.
Variable start : Stmt -> World -> World * (list Runner * option exception).
Variable perform : Runner -> World -> World * (list Runner * option exception).
Notation state := (state World Stmt Runner).
Notation run := (run World Stmt Runner exception start).
Notation execute := (execute World Stmt Runner exception perform).
Variable load : text -> list Stmt + exception.
Variable split : text -> list Stmt + exception.
Variable ext : text -> text.
Variable fuel : nat.
Variable space : N -> bool.
Notation api := (api_execute World Stmt Runner exception start perform fuel).
Notation main := (main World Stmt Runner start perform load split ext fuel space).

(** All statements of all scripts are started and run, script by script, none failing (see C31 for what [api] does). *)
Inductive completes : list (list Stmt + exception) -> state -> state -> Prop :=
| Completes_none st : completes [] st st
| Completes_next sqls rest st st1 st2 : api sqls st = (st1, Done) -> completes rest st1 st2 -> completes (inl sqls :: rest) st st2.
(** The scripts before one complete, and that one cannot be read or one of its statements fails with [e]. *)
Inductive fails (e : exception) : list (list Stmt + exception) -> state -> state -> Prop :=
| Fails_read rest st : fails e (inr e :: rest) st st
| Fails_here sqls rest st st1 : api sqls st = (st1, Raised e) -> fails e (inl sqls :: rest) st st1
| Fails_later sqls rest st st1 st2 : api sqls st = (st1, Done) -> fails e rest st1 st2 -> fails e (inl sqls :: rest) st st2.

(** The scripts of an invocation: the initial files, then the file given, or else the text on standard input. *)
Definition script_name (f : text) : bool := existsb (text_eqb (ext f)) [t ".sql"; t ".sqlx"; t ".prql"].
Definition given_file (i : invocation) (f : text) : Prop := exists more, args i = f :: more.
Definition nonblank (s : text) : Prop := strip space s <> [].
Definition scripts_of_file (i : invocation) (f : text) : list (list Stmt + exception) := map load (inits i) ++ [load f].
Definition scripts_of_pipe (i : invocation) : list (list Stmt + exception) := map load (inits i) ++ [split (unquote (strip space (stdin i)))].

Lemma run_script_api : forall s st, run_script World Stmt Runner start perform fuel None s st = match s with inl sqls => api sqls st | inr e => (st, Raised e) end.
Proof. intros [sqls|e] st; [|reflexivity]. unfold run_script, api_execute. destruct (run sqls st) as [st1 [| |]]; reflexivity. Qed.
Fixpoint chain (l : list (list Stmt + exception)) (st : state) : state * outcome exception :=
  match l with
  | [] => (st, Done)
  | s :: r => match run_script World Stmt Runner start perform fuel None s st with (st, Done) => chain r st | other => other end
  end.
Lemma inits_chain : forall files st, run_inits World Stmt Runner start perform load fuel files st = chain (map load files) st.
Proof. induction files as [|f files IH]; intros st; [reflexivity|]. cbn [run_inits map chain]. destruct (run_script _ _ _ _ _ _ _ (load f) st) as [st1 [| |]]; [apply IH|reflexivity|reflexivity]. Qed.
Lemma chain_app : forall a b st, chain (a ++ b) st = match chain a st with (st, Done) => chain b st | other => other end.
Proof. induction a as [|s a IH]; intros b st; [cbn; destruct (chain b st); reflexivity|]. cbn [app chain]. destruct (run_script _ _ _ _ _ _ _ s st) as [st1 [| |]]; [apply IH|reflexivity|reflexivity]. Qed.
Lemma chain_completes : forall l st st', chain l st = (st', Done) <-> completes l st st'.
Proof.
  induction l as [|s l IH]; intros st st'; cbn [chain].
  - split; [intros H; injection H as <-; apply Completes_none|intros H; inversion H; subst; reflexivity].
  - rewrite run_script_api. split.
    + destruct s as [sqls|e]; [|discriminate]. destruct (api sqls st) as [st1 [| |]] eqn:A; try discriminate. intros H. eapply Completes_next; [exact A|apply IH; exact H].
    + intros H. inversion H as [|sqls rest a b c A C]; subst. rewrite A. apply IH. exact C.
Qed.
Lemma chain_fails : forall e l st st', chain l st = (st', Raised e) <-> fails e l st st'.
Proof.
  intros e. induction l as [|s l IH]; intros st st'; cbn [chain].
  - split; [discriminate|intros H; inversion H].
  - rewrite run_script_api. split.
    + destruct s as [sqls|x]; [|intros H; injection H as <- ->; apply Fails_read].
      destruct (api sqls st) as [st1 [| |]] eqn:A; try discriminate; intros H.
      * eapply Fails_later; [exact A|apply IH; exact H].
      * injection H as <- ->. apply Fails_here. exact A.
    + intros H. inversion H as [rest a|sqls rest a b A|sqls rest a b c A C]; subst; [reflexivity| |]; rewrite A; [reflexivity|apply IH; exact C].
Qed.
Lemma run_script_chain : forall s st, run_script World Stmt Runner start perform fuel None s st = chain [s] st.
Proof. intros s st. cbn [chain]. destruct (run_script _ _ _ _ _ _ _ s st) as [st1 [| |]]; reflexivity. Qed.
Lemma main_file : forall i f st, given_file i f -> script_name f = true -> main i st = finish World Stmt Runner (chain (scripts_of_file i f) st).
Proof.
  intros i f st [more A] S. unfold Cli_Model.main, script_file, fileext, script_name in *. rewrite A.
  destruct (ext f) as [|c e] eqn:E; [discriminate S|]. unfold script_ext. rewrite S. cbn [negb]. rewrite !andb_false_r.
  unfold scripts_of_file. rewrite chain_app, inits_chain. destruct (chain (map load (inits i)) st) as [st1 [| |]]; [|reflexivity|reflexivity].
  rewrite run_script_chain. reflexivity.
Qed.
Lemma main_pipe : forall i f st, tty i = false -> given_file i f -> script_name f = false -> nonblank (stdin i) ->
  main i st = finish World Stmt Runner (chain (scripts_of_pipe i) st).
Proof.
  intros i f st T [more A] S N. unfold Cli_Model.main, script_name, nonblank in *. rewrite A, T. cbn [andb negb].
  assert (E : script_file ext i = false)
    by (unfold script_file, fileext; rewrite A; destruct (ext f) eqn:X; [reflexivity|unfold script_ext; exact S]). rewrite E. cbn [negb].
  unfold scripts_of_pipe. rewrite chain_app, inits_chain. destruct (chain (map load (inits i)) st) as [st1 [| |]]; [|reflexivity|reflexivity].
  destruct (strip space (stdin i)) eqn:Q; [contradiction|]. rewrite run_script_chain. reflexivity.
Qed.
Lemma finish_zero : forall r st', finish World Stmt Runner r = (st', Exit 0) <-> r = (st', Done).
Proof.
  intros [st [|e|]] st'; cbn [finish]; split; intros H; try discriminate; try (injection H as <-; reflexivity).
  injection H as <- H. destruct e; discriminate.
Qed.
Lemma finish_other : forall r st' c, c <> 0%Z -> finish World Stmt Runner r = (st', Exit c) <-> exists e, r = (st', Raised e) /\ c = exit_code e.
Proof.
  intros [st [|e|]] st' c N; cbn [finish]; split; try (intros (x & H & _); discriminate); intros H; try discriminate.
  - injection H as <- <-. contradiction.
  - injection H as <- <-. exists e. split; reflexivity.
  - destruct H as (x & H & ->). injection H as <- ->. reflexivity.
Qed.

Theorem file_exit_zero : forall i f st st', given_file i f -> script_name f = true ->
  (main i st = (st', Exit 0) <-> completes (scripts_of_file i f) st st').
Proof. intros i f st st' G S. rewrite (main_file i f st G S), finish_zero. apply chain_completes. Qed.
Theorem file_exit_error : forall i f st st' c, given_file i f -> script_name f = true -> c <> 0%Z ->
  (main i st = (st', Exit c) <-> exists e, fails e (scripts_of_file i f) st st' /\ c = exit_code e).
Proof.
  intros i f st st' c G S N. rewrite (main_file i f st G S), (finish_other _ _ _ N).
  split; intros (e & H & ->); exists e; (split; [apply chain_fails; exact H|reflexivity]).
Qed.
Theorem pipe_exit_zero : forall i f st st', tty i = false -> given_file i f -> script_name f = false -> nonblank (stdin i) ->
  (main i st = (st', Exit 0) <-> completes (scripts_of_pipe i) st st').
Proof. intros i f st st' T G S N. rewrite (main_pipe i f st T G S N), finish_zero. apply chain_completes. Qed.
Theorem pipe_exit_error : forall i f st st' c, tty i = false -> given_file i f -> script_name f = false -> nonblank (stdin i) -> c <> 0%Z ->
  (main i st = (st', Exit c) <-> exists e, fails e (scripts_of_pipe i) st st' /\ c = exit_code e).
Proof.
  intros i f st st' c T G S B N. rewrite (main_pipe i f st T G S B), (finish_other _ _ _ N).
  split; intros (e & H & ->); exists e; (split; [apply chain_fails; exact H|reflexivity]).
Qed.
(** A script on standard input without any argument is started but never run, and the process always fails. *)
Theorem pipe_without_arguments_refuted : forall i st st1 sqls st2, tty i = false -> args i = [] -> nonblank (stdin i) ->
  completes (map load (inits i)) st st1 -> split (unquote (strip space (stdin i))) = inl sqls -> run sqls st1 = (st2, Done) ->
  main i st = (st2, Exit 1) /\ exists started, map fst started = sqls /\ calls st2 = calls st1 ++ map (as_started Stmt Runner) started
    /\ queue st2 = queue st1 ++ concat (map snd started).
Proof.
  intros i st st1 sqls st2 T A N C S R. split.
  - unfold Cli_Model.main, script_file, fileext. rewrite A, T. cbn [andb negb]. rewrite inits_chain.
    rewrite (proj2 (chain_completes _ _ _) C). unfold nonblank in N. destruct (strip space (stdin i)); [contradiction|].
    unfold run_script. rewrite S, R. reflexivity.
  - destruct (run_in_order World Stmt Runner exception start _ _ _ _ R) as (started & rest & E1 & E2 & E3 & E4).
    destruct E4 as [[_ ->]|(e & s & w & ad & H & _)]; [|discriminate]. exists started. rewrite app_nil_r in E1. repeat split; [symmetry; exact E1|exact E2|exact E3].
Qed.
(** A file of another kind at a terminal is refused before anything is run. *)
Theorem other_file_refused : forall i f st, tty i = true -> given_file i f -> ext f <> [] -> script_name f = false -> main i st = (st, Exit 2).
Proof.
  intros i f st T [more A] E S. unfold Cli_Model.main, fileext. rewrite A, T. unfold script_name in S. destruct (ext f); [contradiction|].
  unfold script_ext. rewrite S. reflexivity.
Qed.

(** *** The prompt *)
Variable segment : text -> Stmt.
Variable shell : text -> World -> World.
Notation prompt := (prompt World Stmt Runner start perform fuel space segment shell).

(** What a command does on its own, with nothing queued before. *)
Definition alone (s : text) (w : World) : World := world (fst (api [segment s] (mkstate w [] []))).
Definition is_exit (s : text) : bool := text_eqb (firstn 4 (map lower_ascii s)) (t "exit").
(** The lines before the first exit or end of input. *)
Fixpoint entered (inputs : list input) : list text :=
  match inputs with
  | [] => []
  | EndOfInput :: _ => []
  | ControlC :: r => entered r
  | Line s :: r => let s := strip space s in match s with [] => entered r | _ => if is_exit s then [] else s :: entered r end
  end.
Definition one (w : World) (s : text) : World :=
  match s with c :: _ => if N.eqb c 33 || N.eqb c 37 then shell s w else alone s w | [] => w end.

Lemma execute_world : forall k w q c c', world (fst (execute k (mkstate w q c))) = world (fst (execute k (mkstate w q c'))).
Proof.
  induction k as [|k IH]; intros w q c c'; destruct q as [|r q]; try reflexivity. cbn [Exec_Model.execute queue world calls].
  destruct (perform r w) as [w' [ad [e|]]]; [reflexivity|]. apply IH.
Qed.
Theorem prompt_commands_independent : forall inputs st,
  (forall s w e, snd (snd (start s w)) = Some e -> fst (snd (start s w)) = []) -> queue st = [] ->
  world (prompt inputs st) = fold_left one (entered inputs) (world st) /\ queue (prompt inputs st) = [].
Proof.
  intros inputs st NA. revert st. induction inputs as [|[s| |] inputs IH]; intros st Q; cbn [Cli_Model.prompt entered fold_left].
  - split; [reflexivity|exact Q].
  - cbv zeta. destruct (strip space s) as [|c s'] eqn:S; [exact (IH st Q)|].
    change (leave (c :: s')) with (is_exit (c :: s')). destruct (is_exit (c :: s')); [split; [reflexivity|exact Q]|].
    cbn [fold_left]. unfold one at 2. destruct ((c =? 33)%N || (c =? 37)%N).
    + destruct (IH (with_world World Stmt Runner (shell (c :: s')) st) Q) as [W K]. rewrite W. split; [reflexivity|exact K].
    + assert (H : world (command World Stmt Runner start perform fuel segment (c :: s') st) = alone (c :: s') (world st)
                  /\ queue (command World Stmt Runner start perform fuel segment (c :: s') st) = []).
      { unfold command, alone, api_execute. cbn [Exec_Model.run]. specialize (NA (segment (c :: s')) (world st)).
        cbn [world queue calls]. destruct (start (segment (c :: s')) (world st)) as [w' [ad [e|]]]; cbn [fst snd] in *.
        - rewrite (NA e eq_refl), app_nil_r. cbn [world queue fst]. split; [reflexivity|exact Q].
        - rewrite Q. cbn [app]. unfold clear. cbn [world queue]. split; [apply execute_world|reflexivity]. }
      destruct H as [H1 H2]. destruct (IH _ H2) as [W K]. rewrite W, H1. split; [reflexivity|exact K].
  - exact (IH st Q).
  - split; [reflexivity|exact Q].
Qed.
End P.
Print Assumptions file_exit_zero.
Print Assumptions file_exit_error.
Print Assumptions pipe_exit_zero.
Print Assumptions pipe_exit_error.
Print Assumptions pipe_without_arguments_refuted.
Print Assumptions other_file_refused.
Print Assumptions prompt_commands_independent.

(** *** Examples: a statement is a number; starting an even one queues it, an odd one fails; running n appends it to the world. *)
Definition ex_start (n : nat) (w : list nat) : list nat * (list nat * option exception) := if Nat.even n then (w, ([n], None)) else (w, ([], Some OtherException)).
Definition ex_perform (n : nat) (w : list nat) : list nat * (list nat * option exception) := if Nat.eqb n 4 then (w, ([], Some KeyboardInterrupt)) else (w ++ [n], ([], None)).
Definition ex_load (f : text) : list nat + exception := if text_eqb f (t "a.sql") then inl [2; 6] else if text_eqb f (t "b.sql") then inl [8; 4; 10] else inr OtherException.
Definition ex_ext (f : text) : text := skipn 1 f.
Definition ex_main i := main (list nat) nat nat ex_start ex_perform ex_load (fun _ => inl [12]) ex_ext 9 (N.eqb 32) i (mkstate [] [] []).
Example file_ok : (fun r => (world (fst r), snd r)) (ex_main {| tty := true; args := [t "a.sql"]; stdin := []; inits := [] |}) = ([2; 6], Exit 0).
Proof. reflexivity. Qed.
Example file_bad : (fun r => (world (fst r), snd r)) (ex_main {| tty := true; args := [t "b.sql"]; stdin := []; inits := [t "a.sql"] |}) = ([2; 6; 8], Exit 130).
Proof. reflexivity. Qed.
Example pipe_ok : (fun r => (world (fst r), snd r)) (ex_main {| tty := false; args := [t "-"]; stdin := t " select 1 "; inits := [] |}) = ([12], Exit 0).
Proof. reflexivity. Qed.
Example pipe_bad : (fun r => (world (fst r), snd r)) (ex_main {| tty := false; args := []; stdin := t " select 1 "; inits := [] |}) = ([], Exit 1).
Proof. reflexivity. Qed.
(** The hypotheses of the theorems hold in these runs; a failing command between two others. *)
Example pipe_bad_applies : exists st2, run (list nat) nat nat exception ex_start [12] (mkstate [] [] []) = (st2, Done).
Proof. eexists. reflexivity. Qed.
Example prompt_run :
  world (prompt (list nat) nat nat ex_start ex_perform 9 (N.eqb 32) (@length N) (fun _ w => w) [Line (t "ab"); Line (t "abc "); ControlC; Line (t "abcdef"); Line (t "EXIT"); Line (t "ab")] (mkstate [] [] []))
  = [2; 6].
Proof. reflexivity. Qed.
Example ex_start_clean : forall s w e, snd (snd (ex_start s w)) = Some e -> fst (snd (ex_start s w)) = [].
Proof. intros s w e. unfold ex_start. destruct (Nat.even s); [discriminate|reflexivity]. Qed.

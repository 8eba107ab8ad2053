(** Model of statement scheduling: syncanysql/executor.py Executor.run, compile, execute, add_runner, the with-protocol,
    distribute_tasker_index, and syncanysql/__init__.py ExecuterContext.execute.

    What a statement does when it is started and what a runner does when it is run is left abstract ([start], [perform]):
    any function of the whole outside world (variables, configuration, databases). *)
From Verif Require Import Base.

Section Exec.
Variables World Stmt Runner Exn : Type.
(** Compiler.compile followed by tasker.start: the new world, the runners appended to the executor's queue in order (those
    of nested executor.compile calls, taskers/set.py:26, and those returned, executor.py:167-168), and the exception, if any. *)
Variable start : Stmt -> World -> World * (list Runner * option Exn).
(** tasker.run: the new world, the runners it appended with add_runner (executor.py:184-185), and the exception, if any. *)
Variable perform : Runner -> World -> World * (list Runner * option Exn).

(** Observable calls, recorded for the specification only. *)
Inductive call := Started (s : Stmt) (added : list Runner) | Ran (r : Runner) (added : list Runner).
Record state := mkstate { world : World; queue : list Runner; calls : list call }.
Inductive outcome := Done | Raised (e : Exn) | Running.

(** executor.py:142-156 run, 158-168 compile (variable interpolation and raw(...) rewriting are part of [start]). *)
Fixpoint run (sqls : list Stmt) (st : state) : state * outcome :=
  match sqls with
  | [] => (st, Done)
  | s :: rest =>
    let '(w, (added, e)) := start s (world st) in
    let st' := mkstate w (queue st ++ added) (calls st ++ [Started s added]) in
    match e with Some e => (st', Raised e) | None => run rest st' end
  end.
(** executor.py:170-178 execute: the loop, cut after [fuel] runners. *)
Fixpoint execute (fuel : nat) (st : state) : state * outcome :=
  match queue st with
  | [] => (st, Done)
  | r :: q =>
    match fuel with
    | O => (st, Running)
    | S fuel =>
      let '(w, (added, e)) := perform r (world st) in
      let st' := mkstate w (q ++ added) (calls st ++ [Ran r added]) in
      match e with Some e => (st', Raised e) | None => execute fuel st' end
    end
  end.
(** __init__.py:55-61 ExecuterContext.execute: start everything, then run everything. *)
Definition api_execute (fuel : nat) (sqls : list Stmt) (st : state) : state * outcome :=
  match run sqls st with
  | (st', Done) => execute fuel st'
  | other => other
  end.
End Exec.
Arguments Started {Stmt Runner}. Arguments Ran {Stmt Runner}.
Arguments mkstate {World Stmt Runner}. Arguments world {World Stmt Runner}. Arguments queue {World Stmt Runner}. Arguments calls {World Stmt Runner}.
Arguments Done {Exn}. Arguments Raised {Exn}. Arguments Running {Exn}.

(** ** The current executor (a thread-local), executor.py:86-91, 203-211.
    A body of code as far as it touches it; executors are numbered, [parent e] is e.parent_executor.
    [Use e] is any e.run / e.compile / e.execute call (executor.py:143, 159, 171). *)
Inductive code := Nop | Use (e : nat) | With (e : nat) (body : code) | Then (a b : code) | Throw.
Fixpoint go (parent : nat -> option nat) (c : code) (cur : option nat) : option nat * bool :=
  match c with
  | Nop => (cur, true)
  | Use e => (Some e, true)
  | With e body => let '(_, ok) := go parent body (Some e) in (parent e, ok)
  | Then a b => let '(cur', ok) := go parent a cur in if ok then go parent b cur' else (cur', false)
  | Throw => (cur, false)
  end.

(** The same for ExecuterContext.current, __init__.py:27-31, 76-81. *)
Fixpoint go_context (c : code) (cur : option nat) : option nat * bool :=
  match c with
  | Nop | Use _ => (cur, true)
  | With e body => let '(_, ok) := go_context body (Some e) in (None, ok)
  | Then a b => let '(cur', ok) := go_context a cur in if ok then go_context b cur' else (cur', false)
  | Throw => (cur, false)
  end.

(** executor.py:213-217 distribute_tasker_index: the root's counter; [fuel] bounds the parent chain. *)
Fixpoint root (parent : nat -> option nat) (fuel : nat) (e : nat) : nat :=
  match fuel with O => e | S f => match parent e with Some p => root parent f p | None => e end end.
Definition distribute (parent : nat -> option nat) (depth : nat) (counters : nat -> nat) (e : nat) : (nat -> nat) * nat :=
  let r := root parent depth e in
  (fun x => if Nat.eqb x r then S (counters x) else counters x, S (counters r)).

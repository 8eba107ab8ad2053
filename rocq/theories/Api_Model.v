(** Model of the memory tables, the life cycle and the termination of the script engine: syncanysql/__init__.py:92-232 ScriptEngine,
    28-90 ExecuterContext and the module's functions of the same names (243-263).

    Trusted reading of the external package: the rows of the memory database "--" live in the manager; query(...).commit() returns the rows of
    a table in the order of their insertion ([] for an unknown table), insert(...).commit() appends rows, delete(...).commit() without a filter
    removes all rows.  The initial files of the configuration, logging and extensions (setup) are not modelled. *)
From Verif Require Import Base Agg_Model.
Set Implicit Arguments.

Section Api.
Variables Row D : Type.     (* D: a database configuration *)

(** config, manager, the databases of the session's configuration, self.databases, the rows of the memory database *)
Record engine := { has_config : bool; has_manager : bool; dbs : list (text * D); handles : list (text * D); store : list (text * list Row) }.
(** __init__.py:105-110: a new engine; [d] are the databases of the configuration *)
Definition new_engine (d : list (text * D)) : engine := {| has_config := true; has_manager := false; dbs := d; handles := []; store := [] |}.

(** 112-125: the executor exists exactly when the manager does; self.config.load on None is an AttributeError *)
Definition setup (e : engine) : res engine :=
  if has_manager e then Ok e
  else if has_config e then Ok {| has_config := true; has_manager := true; dbs := dbs e; handles := handles e; store := store e |}
  else Err AttributeError.

(** 159-176 (every driver is known) *)
Definition get_database (e : engine) (db : text) : res (engine * D) :=
  do e <- setup e;
  let db := match db with [] => t "--" | _ => db end in
  match assoc db (handles e) with
  | Some h => Ok (e, h)
  | None =>
    match assoc db (dbs e) with
    | None => Err OtherError
    | Some c => Ok ({| has_config := has_config e; has_manager := has_manager e; dbs := dbs e; handles := dict_set db c (handles e); store := store e |}, c)
    end
  end.

Definition rows_of (e : engine) (name : text) : list Row :=
  match assoc (t "--." ++ name) (store e) with Some l => l | None => [] end.
Definition with_store (e : engine) (s : list (text * list Row)) : engine :=
  {| has_config := has_config e; has_manager := has_manager e; dbs := dbs e; handles := handles e; store := s |}.

(** 178-183 *)
Definition get_memory_datas (e : engine) (name : text) : res (engine * list Row) :=
  if negb (has_manager e) then Ok (e, [])
  else do p <- get_database e (t "--"); Ok (fst p, rows_of (fst p) name).
(** 185-193 *)
Definition pop_memory_datas (e : engine) (name : text) : res (engine * list Row) :=
  if negb (has_manager e) then Ok (e, [])
  else do p <- get_database e (t "--");
       let e := fst p in Ok (with_store e (dict_set (t "--." ++ name) [] (store e)), rows_of e name).
(** 195-198; datas is a list of rows or a single row *)
Inductive datas := Rows (l : list Row) | OneRow (r : Row).
Definition push_memory_datas (e : engine) (name : text) (d : datas) : res engine :=
  do p <- get_database e (t "--");
  let e := fst p in
  let l := match d with Rows l => l | OneRow r => [r] end in
  Ok (with_store e (dict_set (t "--." ++ name) (rows_of e name ++ l) (store e))).

(** 72-73 ExecuterContext.push_memory_datas and 277-278 the module's function: engine.push_datas does not exist *)
Definition context_push_memory_datas (e : engine) (name : text) (d : datas) : res engine := Err AttributeError.
Definition module_push_memory_datas (e : engine) (name : text) (d : datas) : res engine := Err AttributeError.

(** 209-218: manager.close() drops the memory database *)
Definition close (e : engine) : engine :=
  {| has_config := false; has_manager := false; dbs := dbs e; handles := []; store := if has_manager e then [] else store e |}.
(** get_variable, set_variable, use, context, execute (127-157): all call setup first *)
Definition touch (e : engine) : res engine := setup e.

(** Termination.  The context of the calling thread: None when no context was ever entered in this thread (reading the attribute of the
    thread-local object fails), otherwise the attribute's value. *)
Definition thread := option (option nat).
(** What became of the running statement. *)
Inductive ended := NothingRunning | Terminated.
(** executor.py:183-186 Executor.terminate; [running]: a statement is running *)
Definition executor_terminate (running : bool) : ended := if running then Terminated else NothingRunning.
(** 200-207 ScriptEngine.terminal (also the module's terminal); [up]: the engine has an executor *)
Definition terminal (th : thread) (up running : bool) : res ended :=
  match th with
  | None => Err AttributeError
  | Some None => Ok (if up then executor_terminate running else NothingRunning)
  | Some (Some _) => Err AttributeError       (* ExecuterContext has no method terminate *)
  end.
(** 75-78 ExecuterContext.terminal *)
Definition context_terminal (running : bool) : ended := executor_terminate running.

(** A program: a sequence of calls, with what each returns. *)
Inductive call := Push (name : text) (d : datas) | Get (name : text) | Pop (name : text) | Touch | Close.
Inductive answer := Nothing | Datas (l : list Row) | Failed (x : exn).
Definition step (c : call) (e : engine) : engine * answer :=
  match c with
  | Push n d => match push_memory_datas e n d with Ok e => (e, Nothing) | Err x => (e, Failed x) end
  | Get n => match get_memory_datas e n with Ok (e, l) => (e, Datas l) | Err x => (e, Failed x) end
  | Pop n => match pop_memory_datas e n with Ok (e, l) => (e, Datas l) | Err x => (e, Failed x) end
  | Touch => match touch e with Ok e => (e, Nothing) | Err x => (e, Failed x) end
  | Close => (close e, Nothing)
  end.
Fixpoint program (cs : list call) (e : engine) : engine * list answer :=
  match cs with
  | [] => (e, [])
  | c :: r => let (e, a) := step c e in let (e, l) := program r e in (e, a :: l)
  end.
End Api.
Arguments Touch {Row}. Arguments Close {Row}. Arguments Get {Row}. Arguments Pop {Row}.
Arguments Nothing {Row}. Arguments Failed {Row}.

(** Model of how a script with variables is executed: executor.py:141-180 Executor.run, compile, execute, 84-98 the scopes of executors;
    taskers/set.py:9-34 SetCommandTasker.start; taskers/into.py:12-58 IntoTasker; taskers/execute.py:16-69 ExecuteTasker;
    calculaters/env_variable_calculater.py (variables are read when a query runs).

    Simplifications: variables are named with an at sign everywhere, so the look-up by the bare name (Env_Model) is not needed; a SET of an
    expression is compiled to SELECT expression INTO variable (set.py:26-28), whose result is one row with one column (the other shapes are in
    Into_Model); statements do not fail (failures are in Exec_Model); a query is represented by the value it shows (its select list: variables in a WHERE condition handed to a table's source, and the types
    of comparisons, use the value at compilation, compiler.py:2733-2743, and are not covered; nor are ${x} texts, replaced at compilation). *)
From Verif Require Import Base Vars_Spec.
Set Implicit Arguments.

Section Vars.
Variable V : Type.
Variable null : V.
Notation stmt := (stmt V). Notation expr := (expr V). Notation scope := (scope V). Notation scopes := (scopes V).

(** What Executor.compile appends to executor.runners; the executor of EXECUTE has its own variables (executor.py:97) and runners. *)
Inductive runner := RInto (x : text) (e : expr) | RQuery (e : expr) | RExec (env : scope) (rs : list runner).

(** Statements are started in order (executor.py:141-157): literals are stored at once (set.py:24, 44-48), an INTO declares its variable in the
    executor's own dictionary (into.py:13-16), EXECUTE starts all statements of the file in a new executor (execute.py:19-31). *)
Fixpoint start (a : stmt) (s : scopes) : scopes * list runner :=
  match a with
  | SetLit x v => (put_local x v s, [])
  | SetGlobal x v => (put_global x v s, [])
  | SetExpr x e => (put_new null x s, [RInto x e])
  | Query e => (s, [RQuery e])
  | Declare x => (put_new null x s, [])
  | Execute f =>
    match (fix all (f : list stmt) (s : scopes) : scopes * list runner :=
      match f with [] => (s, []) | a :: r => let (s1, q1) := start a s in let (s2, q2) := all r s1 in (s2, q1 ++ q2) end) f ([] :: s) with
    | (env :: s', q) => (s', [RExec env q])
    | ([], q) => ([], q)
    end
  end.
Fixpoint start_all (f : list stmt) (s : scopes) : scopes * list runner :=
  match f with [] => (s, []) | a :: r => let (s1, q1) := start a s in let (s2, q2) := start_all r s1 in (s2, q1 ++ q2) end.

(** executor.py:171-178 execute: the runners in order; into.py:36-50; execute.py:58-69 *)
Fixpoint perform (r : runner) (s : scopes) : scopes * list V :=
  match r with
  | RInto x e => (put_local x (eval null s e) s, [])
  | RQuery e => (s, [eval null s e])
  | RExec env q =>
    let (s', o) := (fix all (q : list runner) (s : scopes) : scopes * list V :=
      match q with [] => (s, []) | r :: q => let (s1, o1) := perform r s in let (s2, o2) := all q s1 in (s2, o1 ++ o2) end) q (env :: s) in
    (tl s', o)
  end.
Fixpoint perform_all (q : list runner) (s : scopes) : scopes * list V :=
  match q with [] => (s, []) | r :: q => let (s1, o1) := perform r s in let (s2, o2) := perform_all q s1 in (s2, o1 ++ o2) end.

(** __init__.py:52-58 execute: the statements of the script are started, then what they submitted is run. *)
Definition script (f : list stmt) (s : scopes) : scopes * list V :=
  let (s1, q) := start_all f s in perform_all q s1.
(** The prompt (prompt.py) and one API call per statement: each statement is a script of its own. *)
Fixpoint one_by_one (f : list stmt) (s : scopes) : scopes * list V :=
  match f with [] => (s, []) | a :: r => let (s1, o1) := script [a] s in let (s2, o2) := one_by_one r s1 in (s2, o1 ++ o2) end.
End Vars.

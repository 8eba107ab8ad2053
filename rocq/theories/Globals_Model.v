(** Model of the variables a process starts with: syncanysql/executor.py:48-63 EnvVariables.build_global, and of their
    reading by a new executor (Executor.__init__, executor.py:95-102: a scope without variables of its own above the global one).

    Parameters: str.lower; os.environ (in its order), the home directory, the directory of the configuration, the current
    directory, sys.platform and sys.argv. The global variables are built once per process, by the first executor. *)
From Verif Require Import Base Agg_Model Env_Model Utils_Model.
Set Implicit Arguments.

Inductive gval := GTrue | GStr (s : text).

Section Globals.
Variable lower : text -> text.

(** executor.py:60-61: the quotes. *)
Definition unquote (v : text) : text :=
  match v with
  | c :: r => if ((c =? 34) || (c =? 39))%N then removelast r else v
  | [] => v
  end.
(** executor.py:55-62: one argument. *)
Definition add_arg (env : list (text * gval)) (arg : text) : list (text * gval) :=
  match arg with
  | 45%N :: 45%N :: r =>
    match split_on 61 r with
    | [] => env
    | [n] => dict_set n GTrue env
    | n :: v :: _ => dict_set n (GStr (unquote v)) env
    end
  | _ => env
  end.
Definition add_env (env : list (text * gval)) (kv : text * text) : list (text * gval) :=
  dict_set (lower (fst kv)) (GStr (snd kv)) env.

(** executor.py:48-63. *)
Definition build_global (environ : list (text * text)) (home syncany_home cwd platform : text) (argv : list text)
  : list (text * gval) :=
  let env := fold_left add_env environ [] in
  let env := dict_set (t "home") (GStr home) env in
  let env := dict_set (t "syncany_home") (GStr syncany_home) env in
  let env := dict_set (t "cwd") (GStr cwd) env in
  let env := dict_set (t "platform") (GStr platform) env in
  fold_left add_arg argv env.

(** A new executor over the global variables, and what it reads under a name (get_value). *)
Definition start (globals : list (text * gval)) : heap gval := new_scope gval [mkscope gval None globals] (Some 0%nat).
Definition reads (globals : list (text * gval)) (name : text) : res gval := get_value gval (start globals) 1 name.
(** executor.py:104-109 compile_variable: the name in ${...} is lowered. *)
Definition reads_placeholder (globals : list (text * gval)) (name : text) : res gval := reads globals (lower name).
End Globals.

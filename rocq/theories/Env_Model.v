(** Model of the variable scopes: syncanysql/executor.py EnvVariables, the variables part of Executor, and the
    get_variable/set_variable functions of syncanysql/__init__.py.

    A scope is a dict with a reference to its parent scope; scopes are shared, so they live in a heap (a list;
    the index is the identity). *)
From Verif Require Import Base Agg_Model.

Section Env.
Variable V : Type.

Record scope := mkscope { sparent : option nat; svars : list (text * V) }.
Definition heap := list scope.

(** executor.py:42-46 EnvVariables.__init__ (created by Executor.__init__, executor.py:95-104, with the parent
    executor's variables or the global variables as parent). *)
Definition new_scope (h : heap) (p : option nat) : heap := h ++ [mkscope p []].

(** dict item assignment, the only update: executor.py (build_global), taskers/set.py:40-44, taskers/into.py:12-66,
    env_variable_calculater.py:32-37, __init__.py:47-50. *)
Fixpoint set_var (h : heap) (s : nat) (k : text) (v : V) : heap :=
  match h, s with
  | [], _ => []
  | c :: r, O => mkscope (sparent c) (dict_set k v (svars c)) :: r
  | c :: r, S s => c :: set_var r s k v
  end.

(** executor.py:68-75 get_value and 77-84 get: the same search, ending in KeyError or in the default.
    A parent is always older than its scope, so [S s] steps suffice. *)
Fixpoint search (fuel : nat) (h : heap) (s : nat) (k : text) : option V :=
  match fuel with
  | O => None
  | S fuel =>
    match nth_error h s with
    | None => None
    | Some c =>
      match assoc k (svars c) with
      | Some v => Some v
      | None =>
        match (match k with 64%N :: b => assoc b (svars c) | _ => None end) with
        | Some v => Some v
        | None => match sparent c with None => None | Some p => search fuel h p k end
        end
      end
    end
  end.
Definition get_value (h : heap) (s : nat) (k : text) : res V :=
  match search (S s) h s k with Some v => Ok v | None => Err KeyError end.
Definition get (h : heap) (s : nat) (k : text) (default : V) : V :=
  match search (S s) h s k with Some v => v | None => default end.

(** __init__.py:42-50 and 122-134 get_variable / set_variable. *)
Definition at_name (name : text) : text :=
  match name with [] => [] | c :: _ => if (c =? 64)%N then name else 64%N :: name end.
Definition get_variable (h : heap) (s : nat) (name : text) (default : V) : V := get h s (at_name name) default.
Definition set_variable (h : heap) (s : nat) (name : text) (v : V) : heap := set_var h s (at_name name) v.
End Env.

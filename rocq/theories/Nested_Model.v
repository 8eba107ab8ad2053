(** Model of calculaters/query_tasker_calculater.py:11-73 ExecuteQueryTaskerCalculater, executor.py:86-104 and 203-211 (the executor that a subquery
    has of its own), with the variables of Env_Model.

    Executors are objects; the name of the table for the rows of a subquery contains the id of its executor, "--.__queryTasker_" + str(id(executor)), and the id of an
    object that is gone can be given again. [alloc] is any such way of giving ids: it knows the ids in use and the number of ids given so far.

    Simplifications: the run of a query is a [prog]: what it does to variables, to its table and which subqueries it runs, depending on what they return; the
    executor of a subquery is made when it is called (it is made before the first call, and again for each other call, 22-37: the variables
    around it are looked up through the parent in both cases); rows that are written to a table are appended to it (trusted reading of the package). The arguments (24-29) are
    in Args_Model; the current tasker of the thread is restored in the same way as the executor (21, 32, 35, 56) and not modelled. *)
From Verif Require Import Base Agg_Model Env_Model Nested_Syntax.

Section Model.
Variables V R : Type.
Variable null : V.
Variable alloc : list nat -> nat -> nat.
Notation heap := (Env_Model.heap V).

Record executor := Executor { e_scope : nat; e_id : nat }.
Record state := State {
  s_vars : heap;
  s_tables : nat -> list R;                          (* --.__queryTasker_<id> *)
  s_current : list executor;                         (* Executor.current() and, through parent_executor, those around it *)
  s_given : nat }.

Definition live (st : state) : list nat := map e_id (s_current st).
Definition table_set (f : nat -> list R) (i : nat) (rs : list R) : nat -> list R := fun j => if Nat.eqb j i then rs else f j.
Definition scope_of (st : state) : nat := match s_current st with e :: _ => e_scope e | [] => 0%nat end.

(** 40-46: for exp, values in query["filters"].items(). *)
Definition set_filter (s : nat) (h : heap) (kv : option text * V) : heap :=
  match fst kv with
  | None | Some [] => h                              (* not key or not isinstance(key, str) *)
  | Some k => Env_Model.set_var V h s (64%N :: k) (snd kv)
  end.
Definition set_filters (s : nat) (h : heap) (fs : filters V) : heap :=
  fold_left (fun h ef => match fst ef with [] => h | _ => fold_left (set_filter s) (snd ef) h end) fs h.

(** 58-73 and the entry of the with statement, 38: a new executor whose variables have those of the current one around them. *)
Definition enter (st : state) : state :=
  State (Env_Model.new_scope V (s_vars st) (Some (scope_of st))) (s_tables st)
        (Executor (length (s_vars st)) (alloc (live st) (s_given st)) :: s_current st) (S (s_given st)).
(** executor.py:207-208 *)
Definition leave (st : state) : state := State (s_vars st) (s_tables st) (tl (s_current st)) (s_given st).

(** The run of a query whose rows go to the table of the current executor. *)
Fixpoint run (p : prog V R) (st : state) : state * bool :=
  match p with
  | Done => (st, true)
  | Fail => (st, false)
  | Emit r p =>
    match s_current st with
    | e :: _ => run p (State (s_vars st) (table_set (s_tables st) (e_id e) (s_tables st (e_id e) ++ [r])) (s_current st) (s_given st))
    | [] => (st, false)
    end
  | Get x k => run (k (Env_Model.get V (s_vars st) (scope_of st) (64%N :: x) null)) st
  | Put x v p => run p (State (Env_Model.set_var V (s_vars st) (scope_of st) (64%N :: x) v) (s_tables st) (s_current st) (s_given st))
  | Sub fs body k =>
    let st1 := enter st in
    let st2 := State (set_filters (scope_of st1) (s_vars st1) fs) (s_tables st1) (s_current st1) (s_given st1) in
    let i := match s_current st1 with e :: _ => e_id e | [] => 0%nat end in
    match run body st2 with                          (* 48: executor.execute() *)
    | (st3, false) => (leave st3, false)
    | (st3, true) =>
      let rows := s_tables st3 i in                  (* 49-50: the query *)
      run (k rows) (leave (State (s_vars st3) (table_set (s_tables st3) i []) (s_current st3) (s_given st3)))   (* 51-53: the delete *)
    end
  end.

(** Statements one after the other, each with the rows it has given. Their own executor stays the current one; the table of its id stands for their output. *)
Fixpoint statements (l : list (prog V R)) (st : state) : list (list R * bool) * state :=
  match l with
  | [] => ([], st)
  | p :: l =>
    let i := match s_current st with e :: _ => e_id e | [] => 0%nat end in
    let st0 := State (s_vars st) (table_set (s_tables st) i []) (s_current st) (s_given st) in
    let (st1, ok) := run p st0 in
    let (os, st2) := statements l st1 in
    ((s_tables st1 i, ok) :: os, st2)
  end.
End Model.
Arguments State {V R}. Arguments s_vars {V R}. Arguments s_tables {V R}. Arguments s_current {V R}. Arguments s_given {V R}.

(** Model of the temporary in-memory tables of subqueries: syncanysql/taskers/query.py:55-81
    (QueryTaskerTemporaryMemoryManager), 386-393 (compile_tasker), 455-475 (check_free_temporary_memory_collection),
    156-187 (the clean-up at the end of run) and syncanysql/executor.py:187-204.

    One statement is one manager, shared by all its tasks. A task is reduced to the temporary table it loads from and the
    one it writes to (None when it is not one). Simplifications: the memory database is the set of the names of its
    tables; tables read by a join are not registered as used by the code, so they are not part of a task here. Whether a table is kept because it is streaming is
    an input of the events. *)
From Verif Require Import Base Agg_Model Config_Model.
Local Open Scope Z_scope.

Record task := mktask { loads_from : option text; writes_to : option text }.
Record mem_state := mkmem { uses : list (text * Z); store : list text }.

Definition has {A} (n : text) (d : list (text * A)) : bool := match assoc n d with Some _ => true | None => false end.
(** query.py:59-61 *)
Definition add_collection (n : text) (u : list (text * Z)) : list (text * Z) := if has n u then u else dict_set n 0 u.
(** query.py:63-64; the dict is a defaultdict(int) *)
Definition use_collection (n : text) (u : list (text * Z)) : list (text * Z) :=
  dict_set n ((match assoc n u with Some z => z | None => 0 end) + 1) u.
(** query.py:66-70 *)
Definition unuse_collection (n : text) (u : list (text * Z)) : list (text * Z) * bool :=
  match assoc n u with
  | None => (u, true)
  | Some z => (dict_set n (z - 1) u, z - 1 <=? 0)
  end.
(** query.py:72-78 *)
Definition free_collection (n : text) (u : list (text * Z)) : list (text * Z) :=
  match assoc n u with
  | None => u
  | Some z => if 0 <? z then u else dict_del n u
  end.
Definition delete_table (n : text) (s : list text) : list text := filter (fun m => negb (text_eqb n m)) s.

(** query.py:388-394: the loader is counted, then the output table is registered. *)
Definition open_task (t : task) (st : mem_state) : mem_state :=
  let u := match loads_from t with Some n => use_collection n (uses st) | None => uses st end in
  let u := match writes_to t with Some n => add_collection n u | None => u end in
  mkmem u (store st).
(** query.py:458-473. [streaming]: executor.runners and database.is_streaming(name). *)
Definition close_task (t : task) (streaming : bool) (st : mem_state) : mem_state :=
  match loads_from t with
  | None => st
  | Some n =>
    if (match writes_to t with Some m => text_eqb n m | None => false end) then st
    else let (u, free) := unuse_collection n (uses st) in
         if free then if streaming then mkmem u (store st)
                      else mkmem (free_collection n u) (delete_table n (store st))
         else mkmem u (store st)
  end.
(** The task's output is written: the table exists from the first write on. *)
Definition write_task (t : task) (st : mem_state) : mem_state :=
  match writes_to t with
  | Some n => if mem n (store st) then st else mkmem (uses st) (store st ++ [n])
  | None => st
  end.
(** query.py:184-187 and executor.py:187-204: delete every registered table (the registrations stay). *)
Definition clear (streaming : text -> bool) (st : mem_state) : mem_state :=
  mkmem (uses st) (fold_left (fun s n => if streaming n then s else delete_table n s) (map fst (uses st)) (store st)).

(** What happens to a statement: its tasks are compiled (Open), write, and finish (Close, also when they fail), in
    any order; End is the clean-up at the end of run. *)
Inductive ev := Open (i : nat) | Write (i : nat) | Close (i : nat) (streaming : bool) | End (streaming : text -> bool).
Definition step (tasks : nat -> task) (st : mem_state) (e : ev) : mem_state :=
  match e with
  | Open i => open_task (tasks i) st
  | Write i => write_task (tasks i) st
  | Close i b => close_task (tasks i) b st
  | End f => clear f st
  end.
Definition run (tasks : nat -> task) (h : list ev) : mem_state := fold_left (step tasks) h (mkmem [] []).

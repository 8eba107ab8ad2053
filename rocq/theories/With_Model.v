(** Model of WITH and of subqueries in FROM and JOIN: compiler.py:208-235 compile_query, 237-252 compile_with, 253-270
    compile_subquery, 409-428 (FROM), 571-577 (input and output), and of the order of execution, taskers/query.py:181-200
    run_yield, 434-446 run_tasker.

    Simplifications: a query is any function of the rows of its sources; queries inside WITH or FROM have no WITH of their own; the
    primary key in the text of the input is one text; the streaming mode is off, so that a generator
    runs to its end when it is first resumed.  Temporary tables of subqueries have new names ([temp], by uuid).
    Trusted reading of the external package: a task reads its sources and appends its rows to the table of its output, for "use I";
    a dependency which reads its own output (@loop) is run like any other.  Removal of temporary
    tables is the subject of Temp_Model and left out here. *)
From Verif Require Import Base Str_Model With_Spec.

Section With.
Variable Row : Type.
Variable temp : nat -> text.                        (* "__subquery_" + uuid + "_" + alias *)
Variable pk : text.                                  (* what follows :: in an input *)
Notation query := (query Row).

(** A compiled task: the table it reads, those of its joins, the table it writes (None: the result of the statement), its dependencies. *)
Inductive config := Config (f : list (list Row) -> list Row) (inputs : list text) (output : option text) (deps : list config).
Definition set_output (o : text) (c : config) : config := match c with Config f i _ d => Config f i (Some o) d end.

(** compile_select with its sources in order; [k] counts the names already given.  compile_subquery: the output of the subquery is
    its temporary table, which the query reads. *)
Fixpoint compile (q : query) (k : nat) : config * nat :=
  match q with
  | Query f sources =>
    let '(inputs, deps, k') :=
      (fix go l k := match l with
        | [] => ([], [], k)
        | inl n :: r => let '(i, d, k1) := go r k in (n :: i, d, k1)
        | inr q :: r =>
          let '(c, k1) := compile q (S k) in
          let '(i, d, k2) := go r k1 in
          (memory_table (temp k) :: i, set_output (memory_table (temp k)) c :: d, k2)
        end) sources k in
    (Config f inputs None deps, k')
  end.

(** compiler.py:245-251: a dependency whose input starts with the name of the table of the query is made to read its own output. *)
Definition input_text (table : text) : text := t "&." ++ table ++ t "::" ++ pk.
Definition fix_dependency (table : text) (c : config) : config :=
  match c with
  | Config f (i :: r) (Some o) d => if prefixb (t "&." ++ table) (input_text i) then Config f (o :: r) (Some o) d else c
  | _ => c
  end.
Fixpoint compile_with (ctes : list (text * query)) (k : nat) : list config * nat :=
  match ctes with
  | [] => ([], k)
  | (name, q) :: r =>
    let '(Config f i _ d, k1) := compile q k in
    let '(cs, k2) := compile_with r k1 in
    (Config f i (Some (memory_table name)) (map (fix_dependency (memory_table name)) d) :: cs, k2)
  end.
(** compile_query with WITH: its tasks come first among the dependencies. *)
Definition compile_statement (ctes : list (text * query)) (q : query) : config :=
  let '(cs, k) := compile_with ctes 0 in
  let '(Config f i o d, _) := compile q k in
  Config f i o (cs ++ d).

(** The tables, and the rows of the result. *)
Definition store := ((text -> list Row) * list Row)%type.
Definition append (o : option text) (l : list Row) (s : store) : store :=
  match o with
  | None => (fst s, snd s ++ l)
  | Some n => (fun m => if text_eqb m n then fst s m ++ l else fst s m, snd s)
  end.
(** query.py:186-194: the dependencies in order, then the task itself. *)
Fixpoint run (c : config) (s : store) : store :=
  match c with
  | Config f inputs o deps =>
    let s := fold_left (fun s d => run d s) deps s in
    append o (f (map (fst s) inputs)) s
  end.
Definition execute (ctes : list (text * query)) (q : query) (tables : text -> list Row) : store :=
  run (compile_statement ctes q) (tables, []).
End With.

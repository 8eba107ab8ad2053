(** Model of whole queries: compiler.py:208-235 compile_query, 237-252 compile_with, 253-270 compile_subquery, 339-384 compile_union, 386-431 (the source of
    compile_select), 622-652 compile_select_star_column for the star of a subquery, 571-577 (input and output); and of their execution in the order of taskers/query.py:181-200, as in
    With_Model.  The statements themselves are those of Alias_Model.

    Simplifications: as in With_Model (a table is its rows; a task appends its rows to the table of its output; the names of temporary tables are new, by
    uuid; the primary key in the text of an input is one text; WITH only before the outermost query); a compile error of a statement is raised when the task
    is run.  Not modelled: SELECT * of a table; UNION ALL of SELECTs with different names (Union_Model); other set operators and ORDER BY or LIMIT of a UNION. *)
From Coq Require Import SpecFloat.
From Verif Require Import Base PyVal Str_Model Expr_Syntax Expr_Model Having_Model Group_Syntax Group_Model Inner_Syntax Inner_Model
  Select_Model Whole_Syntax Whole_Model Collapse_Model Alias_Model Union_Model Full_Syntax.
Open Scope nat_scope.

(** A compiled task: what it computes from the rows of its input, the table it reads (None: const_loader with one row without columns), the table it writes
    (None: the result of the statement), its dependencies. *)
Inductive task := Task (f : list output -> res (list output)) (input : option text) (output : option text) (deps : list task).
Definition set_output (o : text) (c : task) : task := match c with Task f i _ d => Task f i (Some o) d end.

Section Full.
Variable frepr : spec_float -> text.
Variable ident : val -> val -> bool.
Variable ext : text -> option (list val -> val).
Variable lib : text -> list val -> val.
Variable str_of : val -> text.
Variable primary : option text.
Variable pick pick1 : list row -> row.
Variable nested : text -> row -> val.
Variable raw : list (text * state) -> val.
Variable state_name : path -> text.
Variable other : expr -> res hcol.
Variable rematch : text -> val -> bool.
Variable leK : val -> val -> bool.
Variable temp : nat -> text.                         (* "__subquery_" or "__unionquery_" and a uuid *)
Variable pk : text.                                  (* what follows :: in an input *)

(** compiler.py:386-431: one SELECT; the star of a subquery is replaced by the names of its config["schema"] (623-651), that of a table is not modelled. *)
Definition select_task (d star : bool) (st : statement) (from : source query) (rows : list output) : res (list output) :=
  match star, from with
  | true, Nothing | true, Table _ _ => Err OtherError
  | _, _ => run_aliased frepr ident ext lib str_of primary pick pick1 nested raw state_name other rematch leK
              (source_alias from) d (starred star from st) (map (fun o n => field n o) rows)
  end.
(** compiler.py:354-384: the task reading the table of the UNION; the columns are paired in the order of their names, which changes nothing when they have the same names. *)
Fixpoint branch_names (q : query) : list (list text) :=
  match q with
  | Select _ _ _ _ => [query_names q]
  | UnionAll a b => branch_names a ++ branch_names b
  end.
Definition same_names (a b : list text) : bool := if list_eq_dec text_eq_dec (tsort a) (tsort b) then true else false.
Definition union_task (q : query) (rows : list output) : res (list output) :=
  if forallb (same_names (query_names q)) (branch_names q) then Ok (map (outer_row val VNone (Some (query_names q))) rows) else Err OtherError.
(** compile_query on the tasks of the branches of [q] (a SELECT is one branch). *)
Definition whole (q : query) (k : nat) (branches : list task) : task :=
  match q with
  | Select _ _ _ _ => match branches with c :: _ => c | [] => Task (fun _ => Err OtherError) None None [] end
  | UnionAll _ _ => Task (union_task q) (Some (memory_table (temp k))) None (map (set_output (memory_table (temp k))) branches)
  end.
(** compiler.py:341-350, 356-379 and 410-422: the tasks of the branches; [k] counts the names already given. *)
Fixpoint compile_branches (q : query) (k : nat) : list task * nat :=
  match q with
  | Select d star st from =>
    match from with
    | Nothing => ([Task (select_task d star st from) None None []], k)
    | Table n _ => ([Task (select_task d star st from) (Some n) None []], k)
    | Sub q' _ =>
      let '(cs, k1) := compile_branches q' (S (S k)) in
      ([Task (select_task d star st from) (Some (memory_table (temp k))) None [set_output (memory_table (temp k)) (whole q' (S k) cs)]], k1)
    end
  | UnionAll a b =>
    let '(ca, k1) := compile_branches a k in
    let '(cb, k2) := compile_branches b k1 in
    (ca ++ cb, k2)
  end.
Definition compile_query (q : query) (k : nat) : task * nat :=
  let '(cs, k1) := compile_branches q (S k) in (whole q k cs, k1).

(** compiler.py:245-251: a dependency whose input starts with the name of the table of the query is made to read its own output. *)
Definition fix_dependency (table : text) (c : task) : task :=
  match c with
  | Task f (Some i) (Some o) d => if prefixb (t "&." ++ table) (t "&." ++ i ++ t "::" ++ pk) then Task f (Some o) (Some o) d else c
  | Task f None (Some o) d => if prefixb (t "&." ++ table) (t "&.--.--::" ++ pk) then Task f (Some o) (Some o) d else c
  | _ => c
  end.
Fixpoint compile_with (ctes : list (text * query)) (k : nat) : list task * nat :=
  match ctes with
  | [] => ([], k)
  | (name, q) :: r =>
    let '(Task f i _ d, k1) := compile_query q k in
    let '(cs, k2) := compile_with r k1 in
    (Task f i (Some (memory_table name)) (map (fix_dependency (memory_table name)) d) :: cs, k2)
  end.
Definition compile_statement (ctes : list (text * query)) (q : query) : task :=
  let '(cs, k) := compile_with ctes 0 in
  let '(Task f i o d, _) := compile_query q k in
  Task f i o (cs ++ d).

(** The tables, and the rows of the result. *)
Definition store := ((text -> list output) * list output)%type.
Definition append (o : option text) (l : list output) (s : store) : store :=
  match o with
  | None => (fst s, snd s ++ l)
  | Some n => (fun m => if text_eqb m n then fst s m ++ l else fst s m, snd s)
  end.
Definition input_rows (s : store) (i : option text) : list output := match i with Some n => fst s n | None => [[]] end.
(** query.py:186-194: the dependencies in order, then the task itself. *)
Fixpoint run (c : task) (s : store) : res store :=
  match c with
  | Task f i o deps =>
    do s <- (fix go l s := match l with [] => Ok s | d :: r => do s <- run d s; go r s end) deps s;
    do out <- f (input_rows s i);
    Ok (append o out s)
  end.
Definition execute (ctes : list (text * query)) (q : query) (tables : text -> list output) : res (list output) :=
  do s <- run (compile_statement ctes q) (tables, []); Ok (snd s).
End Full.

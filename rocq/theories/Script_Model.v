(** Model of scripts: statements compiled and run one after the other in one executor (executor.py:142-186 and compiler.py:135-145 for the kinds of statements), over the tables
    the statements before them left: compiler.py:208-235 compile_query, 271-337 compile_insert_into, 179-206 compile_delete, 571-580 (the output of an INSERT), and the
    removal of temporary tables at the end of a statement, taskers/query.py:184-187, 389-394, 459-480 and executor.py:187-204.

    Simplifications: as in Full_Model and Insert_Model; INSERT has the type I, which appends (other types: Table_Model); a DELETE removes the rows that the source keeps for its
    pushed conditions (type DI without rows to insert); the first statement that fails ends the script, and what it wrote is not described.  Temporary tables are removed at the end of
    their statement (when exactly: Temp_Model); the tables of WITH, whose names do not begin with __subquery_ or __unionquery_, are not. *)
From Coq Require Import SpecFloat.
From Verif Require Import Base PyVal Str_Model Expr_Syntax Expr_Model Where_Model Having_Model Group_Syntax Group_Model Inner_Syntax Inner_Model
  Select_Model Whole_Syntax Whole_Model Collapse_Model Alias_Model Union_Model Insert_Model Full_Syntax Full_Model Script_Syntax.
Open Scope nat_scope.

Section Script.
Variable frepr : spec_float -> text.
Variable ident : val -> val -> bool.
Variable ext : text -> option (list val -> val).
Variable lib : text -> list val -> val.
Variable str_of : val -> text.
Variable primary : option text.
Variable pick pick1 : list row -> row.
Variable nested : text -> row -> val.
Variable raw : list (text * state) -> val.
Variable state_name : path -> text.
Variable other : expr -> res hcol.
Variable rematch : text -> val -> bool.
Variable leK : val -> val -> bool.
Variable filt : text -> val -> val.
Variable temp : nat -> text.
Variable pk : text.
Notation tables := (text -> list output).

(** compiler.py:208-235; the names of temporary tables already given are counted on. *)
Definition compile_from (ctes : list (text * query)) (q : query) (k : nat) : task * nat :=
  let '(cs, k1) := compile_with frepr ident ext lib str_of primary pick pick1 nested raw state_name other rematch leK temp pk ctes k in
  let '(Task f i o d, k2) := compile_query frepr ident ext lib str_of primary pick pick1 nested raw state_name other rematch leK temp q k1 in
  (Task f i o (cs ++ d), k2).
(** compiler.py:301-309, 577-580: the output of the statement, the console or the table of an INSERT. *)
Definition to_table (o : option text) (c : task) : task := match c with Task f i _ d => Task f i o d end.
(** taskers/query.py:184-187, executor.py:187-204: the temporary tables of the statement are emptied. *)
Definition cleared (k k' : nat) (tb : tables) : tables :=
  fun n => if existsb (fun j => text_eqb n (memory_table (temp j))) (seq k (k' - k)) then [] else tb n.
Definition run_to (o : option text) (ctes : list (text * query)) (q : query) (k : nat) (tb : tables) : res (tables * list output * nat) :=
  let '(c, k') := compile_from ctes q k in
  do s <- run (to_table o c) (tb, []);
  Ok (cleared k k' (fst s), snd s, k').
Definition update (n : text) (f : list output -> list output) (tb : tables) : tables := fun m => if text_eqb m n then f (tb m) else tb m.
(** compiler.py:198-206. *)
Definition deleted (w : option expr) (l : list output) : res (list output) :=
  match where_parts frepr ident ext w with
  | (Some _, _) => Err CompileError
  | (None, q) => Ok (filter (fun o => negb (source_keeps frepr ident ext lib (fun n => field n o) q)) l)
  end.

(** compiler.py:135-145, executor.py:142-186: one statement: its result, if it is a query, the tables it leaves, the names given so far. *)
Definition run_command (c : command) (k : nat) (tb : tables) : res (list (list output) * tables * nat) :=
  match c with
  | Show ctes q => do s <- run_to None ctes q k tb; Ok ([snd (fst s)], fst (fst s), snd s)
  | InsertQuery n ctes q => do s <- run_to (Some n) ctes q k tb; Ok ([], fst (fst s), snd s)
  | InsertRows n names tuples => do l <- insert filt names (Values tuples); Ok ([], update n (fun m => m ++ l) tb, k)
  | DeleteFrom n w => do l <- deleted w (tb n); Ok ([], update n (fun _ => l) tb, k)
  end.
Fixpoint run_script (cs : list command) (k : nat) (tb : tables) : res (list (list output) * tables) :=
  match cs with
  | [] => Ok ([], tb)
  | c :: r =>
    do s <- run_command c k tb;
    do s' <- run_script r (snd s) (snd (fst s));
    Ok (fst (fst s) ++ fst s', snd s')
  end.
End Script.

(** Model of scripts over the queries of Compose_Model: statements compiled and run one after the other in one executor (executor.py:142-186, 187-204, compiler.py:135-145), as in
    Script_Model, with its simplifications: compiler.py:208-235 compile_query, 271-337 compile_insert_into, 179-206 compile_delete, 571-580 (the output of an INSERT),
    taskers/query.py:184-187, 389-394, 459-480. *)
From Coq Require Import SpecFloat.
From Verif Require Import Base PyVal Str_Model Expr_Syntax Expr_Model Where_Model Whole_Syntax Whole_Model Insert_Model Full_Syntax Full_Model Script_Model Compose_Syntax Compose_Model Session_Syntax.
Open Scope nat_scope.

Section Session.
Variable frepr : spec_float -> text.
Variable ident : val -> val -> bool.
Variable ext : text -> option (list val -> val).
Variable lib : text -> list val -> val.
Variable select : core -> list shape -> list rows -> res rows.        (* [run_core] *)
Variable filt : text -> val -> val.
Variable temp : nat -> text.
Variable pk : text.
Notation tables := (text -> rows).

(** compiler.py:208-235; the names of temporary tables already given are counted on. *)
Definition compile_from (ctes : list (text * query)) (q : query) (k : nat) : task * nat :=
  let '(cs, k1) := compile_with select temp pk ctes k in
  let '(Task f i o d, k2) := compile_query select temp q k1 in
  (Task f i o (cs ++ d), k2).
(** compiler.py:301-309, 577-580: the output of the statement, the console or the table of an INSERT. *)
Definition to_table (o : option text) (c : task) : task := match c with Task f i _ d => Task f i o d end.
Definition run_to (o : option text) (ctes : list (text * query)) (q : query) (k : nat) (tb : tables) : res (tables * rows * nat) :=
  let '(c, k') := compile_from ctes q k in
  do s <- run (to_table o c) (tb, []);
  Ok (cleared temp k k' (fst s), snd s, k').
(** compiler.py:135-145, executor.py:142-186: one statement: its result, if it is a query, the tables it leaves, the names given so far. *)
Definition run_command (c : command) (k : nat) (tb : tables) : res (list rows * tables * nat) :=
  match c with
  | Show ctes q => do s <- run_to None ctes q k tb; Ok ([snd (fst s)], fst (fst s), snd s)
  | InsertQuery n ctes q => do s <- run_to (Some n) ctes q k tb; Ok ([], fst (fst s), snd s)
  | InsertRows n names tuples => do l <- insert filt names (Values tuples); Ok ([], update n (fun m => m ++ l) tb, k)
  | DeleteFrom n w => do l <- deleted frepr ident ext lib w (tb n); Ok ([], update n (fun _ => l) tb, k)
  end.
Fixpoint run_session (cs : list command) (k : nat) (tb : tables) : res (list rows * tables) :=
  match cs with
  | [] => Ok ([], tb)
  | c :: r =>
    do s <- run_command c k tb;
    do s' <- run_session r (snd s) (snd (fst s));
    Ok (fst (fst s) ++ fst s', snd s')
  end.
End Session.

(** Model of the process: syncanysql/main.py:18-96 (main) and syncanysql/prompt.py:207-261 (CliPrompt.run).

    What starting a statement and running a runner do is as in Exec_Model.  Abstract: the files ([load]: FileParser(f).load()), splitting of a text
    into statements ([split]: SqlParser(text).split()), the lower-cased extension of a file name ([ext]), the shell and %cd ([shell]).  Not modelled: logging (a wrong
    number of arguments to a log message is reported by the logging package and does not raise), signals, closing. *)
From Verif Require Import Base Exec_Model.

(** What main distinguishes at main.py:86-94. *)
Inductive exception := SystemError | KeyboardInterrupt | OtherException.
Definition exit_code (e : exception) : Z := match e with SystemError | KeyboardInterrupt => 130 | OtherException => 1 end.

Section Cli.
Variables World Stmt Runner : Type.
Variable start : Stmt -> World -> World * (list Runner * option exception).
Variable perform : Runner -> World -> World * (list Runner * option exception).
Notation state := (state World Stmt Runner).
Notation run := (run World Stmt Runner exception start).
Notation execute := (execute World Stmt Runner exception perform).
Variable load : text -> list Stmt + exception.
Variable split : text -> list Stmt + exception.
Variable ext : text -> text.
Variable fuel : nat.

Record invocation := { tty : bool; args : list text; stdin : text; inits : list text }.
Inductive ending := Exit (code : Z) | Prompting | Busy.

(** .sql, .sqlx, .prql *)
Definition script_ext (e : text) : bool := existsb (text_eqb e) [t ".sql"; t ".sqlx"; t ".prql"].
(** main.py:21-24: fileext; an empty one counts as none. *)
Definition fileext (i : invocation) : option text :=
  match args i with [] => None | f :: _ => match ext f with [] => None | e => Some e end end.
Definition script_file (i : invocation) : bool := match fileext i with Some e => script_ext e | None => false end.

(** executor.run(name, sqls) and then executor.execute(), with an exception in between when [broken]. *)
Definition run_script (broken : option exception) (sqls : list Stmt + exception) (st : state) : state * outcome exception :=
  match sqls with
  | inr e => (st, Raised e)
  | inl sqls =>
    match run sqls st with
    | (st, Done) => match broken with Some e => (st, Raised e) | None => execute fuel st end
    | other => other
    end
  end.
(** main.py:46-50. *)
Fixpoint run_inits (files : list text) (st : state) : state * outcome exception :=
  match files with
  | [] => (st, Done)
  | f :: r => match run_script None (load f) st with (st, Done) => run_inits r st | other => other end
  end.
Definition is_quote (c : option N) : bool := match c with Some c => N.eqb c 34 || N.eqb c 39 | None => false end.
(** main.py:57: content[1:-1] when it begins and ends with a quotation mark. *)
Definition unquote (s : text) : text := if is_quote (hd_error s) && is_quote (hd_error (rev s)) then pyslice s (Some 1%Z) (Some (-1)%Z) else s.
Variable space : N -> bool.
Definition finish (r : state * outcome exception) : state * ending :=
  match r with (st, Done) => (st, Exit 0) | (st, Raised e) => (st, Exit (exit_code e)) | (st, Running) => (st, Busy) end.
Definition main (i : invocation) (st : state) : state * ending :=
  if tty i && match fileext i with Some e => negb (script_ext e) | None => false end then (st, Exit 2)
  else match run_inits (inits i) st with
       | (st, Done) =>
         if negb (tty i) && negb (script_file i) then
           match strip space (stdin i) with
           | [] => (st, Exit 0)
           | content =>
             (* main.py:60: the log message takes sys.argv[1] *)
             finish (run_script (match args i with [] => Some OtherException | _ => None end) (split (unquote content)) st)
           end
         else match args i with
              | f :: _ => finish (run_script None (load f) st)
              | [] => (st, Prompting)
              end
       | other => finish other
       end.

(** *** The prompt, prompt.py:222-246 *)
Inductive input := Line (s : text) | ControlC | EndOfInput.
Variable segment : text -> Stmt.
Variable shell : text -> World -> World.
Definition with_world (f : World -> World) (st : state) : state := mkstate (f (world st)) (queue st) (calls st).
Definition clear (st : state) : state := mkstate (world st) [] (calls st).
Definition lower_ascii (c : N) : N := if ((65 <=? c) && (c <=? 90))%N then (c + 32)%N else c.
Definition leave (s : text) : bool := text_eqb (firstn 4 (map lower_ascii s)) (t "exit").
Definition command (s : text) (st : state) : state :=
  match run [segment s] st with
  | (st, Done) => clear (fst (execute fuel st))
  | (st, _) => st
  end.
Fixpoint prompt (inputs : list input) (st : state) : state :=
  match inputs with
  | [] => st
  | EndOfInput :: _ => st
  | ControlC :: r => prompt r st
  | Line s :: r =>
    match strip space s with
    | [] => prompt r st
    | (c :: _) as s =>
      if leave s then st
      else if (N.eqb c 33 || N.eqb c 37)%bool then prompt r (with_world (shell s) st)
      else prompt r (command s st)
    end
  end.
End Cli.

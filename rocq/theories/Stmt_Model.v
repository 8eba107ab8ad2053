(** Model of what is done with one statement, after sqlglot has parsed it: compiler.py:135-177 Compiler.compile_expression (which kind of
    tasker), 611-620 compile_select_into; taskers/explain.py, taskers/set.py, taskers/use.py, taskers/show.py, taskers/into.py:12-21 (start);
    executor.py:158-168 Executor.compile.

    Simplifications: sqlglot is a parameter ([parse]; the remaining text of EXPLAIN, SHOW, EXECUTE is the text it hands over); how queries, deletions and
    executed files are compiled, started and run is left open (parameters that may read and change everything); names replaced by placeholders (Mapping_Model)
    are already put back; tests on letter case are those of ASCII letters; importing a module only succeeds or fails. *)
From Verif Require Import Base PyVal Agg_Model Utils_Model Config_Model Str_Model Stmt_Syntax.
Set Implicit Arguments.

(** The taskers made from statements. *)
Inductive tasker (C : Type) :=
| TQuery (c : C) | TDelete (c : C) | TInto (c : C) (x : text) | TExplain (i : tasker C) | TSet (key value : text)
| TExecute (file : text) | TShow (key : text) | TUse (info : text).
Arguments TSet {C}. Arguments TExecute {C}. Arguments TShow {C}. Arguments TUse {C}.

(** What is printed. *)
Inductive output (C : Type) := OPlan (c : C) | OTable (fields : list text) (rows : list (list cval)).
Arguments OTable {C}.

(** ** set.py:46-65 parse_value. [sp]: str.strip white space, [isdigit]: str.isdigit per character, [lower]: str.lower. The value is not empty
    there unless the statement has none: value[0] of an empty text raises IndexError. *)
Section Value.
Variables (sp isdigit : N -> bool) (lower : text -> text).
Definition quote (c : N) : bool := (c =? 39)%N || (c =? 34)%N.
Definition set_value (value : text) : res val :=
  if match value with c :: _ => quote c | [] => false end then
    if text_eqb (firstn 3 value) [39; 39; 39]%N || text_eqb (firstn 3 value) [34; 34; 34]%N
    then Ok (VStr (strip sp (pyslice value (Some 3) (Some (-3)))))
    else Ok (VStr (strip sp (pyslice value (Some 1) (Some (-1)))))
  else if text_eqb (lower value) (t "true") then Ok (VBool true)
  else if text_eqb (lower value) (t "false") then Ok (VBool false)
  else if text_eqb (lower value) (t "null") then Ok VNone
  else if all_digits isdigit value then do z <- int_of_text value; Ok (VInt z)
  else match value with
  | [] => Err IndexError
  | c0 :: rest =>
    if (c0 =? 45)%N && all_digits isdigit rest then do z <- int_of_text value; Ok (VInt z)
    else match split_on 46 value with
    | [a; b] =>
      (* value[0][1:].isdigit(): value[0] is one character, its tail is empty *)
      if (all_digits isdigit a || ((c0 =? 45)%N && all_digits isdigit [])) && all_digits isdigit b
      then do f <- float_of_text value; Ok (VFloat f)
      else Err ValueError
    | _ => Err ValueError
    end
  end.
End Value.

(** compiler.py:152-157, 172-175: the text of a SET is cut at its first equals sign (split at all of them and joined again). *)
Definition set_parts (sp : N -> bool) (s : text) : text * text :=
  let parts := split_on 61 s in (strip sp (hd [] parts), strip sp (join [61%N] (tl parts))).

Section Stmt.
Variables Q C D : Type.

(** The variables of the executor, the global variables, the configurations, the tables and files, what has been printed. *)
Record world := mkworld { env : list (text * val); genv : list (text * val); confs : tree; data : D; shown : list (output C) }.
Definition with_env (w : world) e := mkworld e (genv w) (confs w) (data w) (shown w).
Definition with_genv (w : world) g := mkworld (env w) g (confs w) (data w) (shown w).
Definition with_confs (w : world) c := mkworld (env w) (genv w) c (data w) (shown w).
Definition print (o : output C) (w : world) := mkworld (env w) (genv w) (confs w) (data w) (shown w ++ [o]).

(** The parts that are left open. *)
Record machine := {
  m_parse : text -> res (parsed Q);                        (* sqlglot; an exception is a syntax error *)
  m_sp : N -> bool; m_isdigit : N -> bool; m_lower : text -> text;   (* str.strip white space, str.isdigit, str.lower *)
  m_json : text -> option cval; m_view : text -> text * cval; m_default : conf;   (* as in Config_Model *)
  m_tag : val -> Z;                                        (* a number standing for a value that is neither null nor a text *)
  m_importable : text -> bool; m_exists : text -> bool;    (* use.py:16-17, 19, 24 *)
  m_me : nat;                                              (* the session's configuration *)
  m_verbose : world -> bool;                               (* executor.py:161: the setting @verbose *)
  m_compile : Q -> world -> res C;                         (* compile_query / compile_delete (compiler.py:179-247) *)
  (* QueryTasker.start with the verbose setting; DeleteTasker.start; IntoTasker.start after its variables (into.py:17-20); EXECUTE (execute.py:16-50) *)
  m_qstart : bool -> C -> world -> world * option exn;
  m_dstart : bool -> C -> world -> world * option exn;
  m_istart : bool -> C -> text -> world -> world * option exn;
  m_fstart : text -> world -> world * option exn;
  (* the run methods *)
  m_qrun : C -> world -> world * option exn;
  m_drun : C -> world -> world * option exn;
  m_irun : C -> text -> world -> world * option exn;
  m_frun : text -> world -> world * option exn }.

Variable m : machine.
Notation parse := (m_parse m). Notation sp := (m_sp m). Notation isdigit := (m_isdigit m). Notation lower := (m_lower m).
Notation json := (m_json m). Notation parse_view := (m_view m). Notation default := (m_default m). Notation me := (m_me m).
Notation compile_query := (m_compile m). Notation qstart := (m_qstart m). Notation dstart := (m_dstart m). Notation istart := (m_istart m). Notation fstart := (m_fstart m).
Notation importable := (m_importable m). Notation exists_path := (m_exists m).

Definition cval_of (v : val) : cval := match v with VNone => CNull | VStr s => CStr s | _ => COther (m_tag m v) end.

(** What is appended to the executor's queue. *)
Inductive runner := RQuery (c : C) | RInto (c : C) (x : text) | RDelete (c : C) | RExplain (i : runner) | RFile (file : text).

(** compiler.py:135-177; [lower] on the keyword. [fuel] bounds the number of nested EXPLAINs (compiler.py:147-149 compile again). *)
Fixpoint compile (fuel : nat) (s : text) (w : world) {struct fuel} : res (tasker C) :=
  match fuel with
  | O => Err OtherError
  | S fuel =>
    do p <- parse s;
    match p with
    | PDelete q => do c <- compile_query q w; Ok (TDelete c)
    | PSelect q into =>
      do c <- compile_query q w;
      match into with
      | None => Ok (TQuery c)
      | Some (ToVariable x) => Ok (TInto c x)
      | Some ToOther => Err CompileError
      end
    | PUnion q into | PInsert q into => do c <- compile_query q w; if into then Err CompileError else Ok (TQuery c)
    | PCommand kw arg =>
      let kw := lower kw in
      match arg with
      | ArgText s => if text_eqb kw (t "set") then Ok (let (k, v) := set_parts sp s in TSet k v) else Err CompileError
      | ArgConst s =>
        if text_eqb kw (t "explain") then do i <- compile fuel s w; Ok (TExplain i)
        else if text_eqb kw (t "set") then Ok (let (k, v) := set_parts sp s in TSet k v)
        else if text_eqb kw (t "execute") then
          Ok (TExecute (match s with c :: _ => if (c =? 96)%N then pyslice s (Some 1) (Some (-1)) else s | [] => s end))
        else if text_eqb kw (t "show") then Ok (TShow s)
        else Err CompileError
      | ArgOther => Err CompileError
      end
    | PUse name => Ok (TUse name)
    | PSet item => Ok (let (k, v) := set_parts sp item in TSet k v)
    | POther => Err CompileError
    end
  end.

(** show.py:25-36. Databases that are not dictionaries are not modelled more closely. *)
Definition show_database (e : cval) : res (list cval) :=
  match e with
  | CDict d =>
    let views := match assoc (t "virtual_views") d with Some v => v | None => CNull end in
    let d := dict_del (t "virtual_views") d in
    match assoc (t "name") d with
    | None => Err KeyError
    | Some n =>
      let d := dict_del (t "name") d in
      match assoc (t "driver") d with
      | None => Err KeyError
      | Some r => Ok [n; r; CDict (dict_del (t "driver") d); if truthy views then views else CStr []]
      end
    end
  | _ => Err AttributeError
  end.
Fixpoint all_res {A B} (f : A -> res B) (l : list A) : res (list B) :=
  match l with [] => Ok [] | a :: l => do b <- f a; do r <- all_res f l; Ok (b :: r) end.
Definition show_databases (c : conf) : res (output C) :=
  match assoc (t "databases") c with
  | None => Ok (OTable [t "name"; t "driver"; t "params"; t "virtual_views"] [])
  | Some (CList l) => do rows <- all_res show_database l; Ok (OTable [t "name"; t "driver"; t "params"; t "virtual_views"] rows)
  | Some _ => Err TypeError
  end.
(** show.py:38-46 *)
Definition show_imports (c : conf) : res (output C) :=
  match assoc (t "imports") c with
  | None => Ok (OTable [t "name"; t "alias"] [])
  | Some (CDict d) => Ok (OTable [t "name"; t "alias"] (map (fun e => [snd e; CStr (fst e)]) d))
  | Some _ => Err AttributeError
  end.
(** show.py:12-17 *)
Definition show (key : text) (w : world) : world * option exn :=
  let answer f :=
    let (tr, c) := Config_Model.get default (S me) (confs w) me in
    let w := with_confs w tr in
    match (do c <- c; f c) with Ok o => (print o w, None) | Err e => (w, Some e) end in
  if text_eqb (lower key) (t "databases") then answer show_databases
  else if text_eqb (lower key) (t "imports") then answer show_imports
  else (w, None).

(** session_config.set(key, value) (config.py:304-307) *)
Definition configure (w : world) (key : text) (v : cval) : world * option exn :=
  match set_in json parse_view (confs w) me (split_on 46 key) v with Ok tr => (with_confs w tr, None) | Err e => (w, Some e) end.

(** use.py:12-28 *)
Definition use (info : text) (w : world) : world * option exn :=
  match map (strip sp) (split_go (t " as ") 0 [] info) with
  | [] | [] :: _ => (w, None)
  | path :: rest =>
    if negb (importable path) then (w, Some OtherError)
    else
      let section := if exists_path path then t "sources." else t "imports." in
      match rest with
      | alias :: _ => configure w (section ++ alias) (CStr path)
      | [] => configure w (section ++ last (split_on 46 path) []) (CStr path)
      end
  end.

(** set.py:9-44. [again]: executor.compile, for SET of an expression (set.py:26-28). *)
Definition set_start (again : text -> world -> world * list runner * option exn) (key value : text) (w : world) : world * list runner * option exn :=
  let value := strip sp value in
  let (glob, target) := set_target key in
  match target with
  | TConf k =>
    match set_value sp isdigit lower value with
    | Err e => (w, [], Some e)
    | Ok v =>
      let (tr, r) := set_config json parse_view (confs w) me k (cval_of v) glob in
      (with_confs w tr, [], match r with Ok _ => None | Err e => Some e end)
    end
  | TVar k =>
    match set_value sp isdigit lower value with
    | Ok v => (if glob then with_genv w (dict_set k v (genv w)) else with_env w (dict_set k v (env w)), [], None)
    | Err ValueError =>
      match k with
      | c :: _ =>
        if (c =? 64)%N then
          match again (t "select " ++ value ++ t " into " ++ k) w with
          | (w, q, None) => (w, q, None)
          | (w, q, Some _) => (w, q, Some ValueError)
          end
        else (w, [], Some ValueError)
      | [] => (w, [], Some ValueError)
      end
    | Err e => (w, [], Some e)
    end
  end.

(** The start methods of the taskers. [verbose] is the setting in force (explain.py:25-27 switches it on). explain.py:16-29: the inner tasker's configuration needs a
    name: a DELETE tasker has no configuration of its own (AttributeError), that of INTO, SET, EXECUTE, SHOW and USE has no name (KeyError), and
    that of EXPLAIN is None before it is started (TypeError). *)
Definition start (again : text -> world -> world * list runner * option exn) (verbose : bool) (i : tasker C) (w : world) : world * list runner * option exn :=
  match i with
  | TQuery c => match qstart verbose c w with (w, None) => (w, [RQuery c], None) | (w, e) => (w, [], e) end
  | TDelete c => match dstart verbose c w with (w, None) => (w, [RDelete c], None) | (w, e) => (w, [], e) end
  | TInto c x =>
    (* into.py:12-16: the variable is there from now on *)
    let w := match assoc x (env w) with Some _ => w | None => with_env w (dict_set x VNone (env w)) end in
    match istart verbose c x w with (w, None) => (w, [RInto c x], None) | (w, e) => (w, [], e) end
  | TExplain i =>
    match i with
    | TQuery c =>
      match qstart true c (print (OPlan c) w) with
      | (w, None) => (w, [RExplain (RQuery c)], None)
      | (w, e) => (w, [], e)
      end
    | TDelete _ => (w, [], Some AttributeError)
    | TExplain _ => (w, [], Some TypeError)
    | _ => (w, [], Some KeyError)
    end
  | TSet k v => set_start again k v w
  | TExecute f => match fstart f w with (w, None) => (w, [RFile f], None) | (w, e) => (w, [], e) end
  | TShow k => let (w, e) := show k w in (w, [], e)
  | TUse u => let (w, e) := use u w in (w, [], e)
  end.

(** executor.py:158-168 compile: the setting @verbose is read from the variables ([verbose]). [fuel] bounds the nesting of EXPLAINs and of SETs. *)
Fixpoint submit (fuel : nat) (s : text) (w : world) : world * list runner * option exn :=
  match fuel with
  | O => (w, [], Some OtherError)
  | S fuel =>
    match compile (S fuel) s w with
    | Err e => (w, [], Some e)
    | Ok i => start (submit fuel) (m_verbose m w) i w
    end
  end.

(** The run methods: explain.py:31-35 runs the inner tasker. *)
Fixpoint perform (r : runner) (w : world) : world * option exn :=
  match r with
  | RQuery c => m_qrun m c w
  | RInto c x => m_irun m c x w
  | RDelete c => m_drun m c w
  | RExplain i => perform i w
  | RFile f => m_frun m f w
  end.
(** executor.py:170-178; runners that add further runners are in Exec_Model *)
Fixpoint perform_all (q : list runner) (w : world) : world * option exn :=
  match q with
  | [] => (w, None)
  | r :: q => match perform r w with (w, None) => perform_all q w | other => other end
  end.
(** One statement: submitted, then run. *)
Definition statement (fuel : nat) (s : text) (w : world) : world * option exn :=
  match submit fuel s w with (w, q, None) => perform_all q w | (w, _, e) => (w, e) end.
End Stmt.

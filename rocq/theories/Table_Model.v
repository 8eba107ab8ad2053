(** Model of the references to tables: compiler.py:2526-2580 and 2624-2635 (parse_table without the tables that are files), 298-309
    (compile_insert_into: the output), 577-580 (compile_select: the output), 341-343, 356-359, 378-382 (compile_union: the output),
    205 (compile_delete) and taskers/query.py:396-418 (names of tables in variables that are NULL at compilation).

    External: the databases of files ([files], Files_Model.v: the databases afterwards, the database and the table, or nothing when the name
    is not a file); [up c] is the upper case of a character that is not ASCII; [str_of v] is str of a value that is not a text.
    A name that is empty is treated as Python treats an empty text (as if it were not given).
    Trusted reading of the package: "&.db.name::keys use T" reads or writes the table name of the database db with update type T, and a loader or
    outputer is named "db.name". *)
From Verif Require Import Base PyVal Insert_Model Annot_Model Str_Model Table_Syntax.
Local Open Scope N_scope.

Record info := mkinfo { i_db : text; i_name : text; i_table : text; i_alias : option text; i_origin : text; i_options : list text }.

(** str.upper, character by character *)
Definition upper_ascii (c : N) : N := if (97 <=? c) && (c <=? 122) then c - 32 else c.
Definition upper (up : N -> text) (s : text) : text := flat_map (fun c => if c <? 128 then [upper_ascii c] else up c) s.

(** compiler.py:2529-2534 *)
Fixpoint dotted_name (d : dotted) : text :=
  match d with Part n => n | Dots a b => dotted_name a ++ t "." ++ dotted_name b end.
Definition given (s : option text) : option text := match s with Some [] => None | _ => s end.
Definition mem (x : text) (l : list text) : bool := existsb (text_eqb x) l.

Section Table.
Variable up : N -> text.
Variable mapping : list (text * text).
Variable files : list database -> text -> list text -> option (list database * text * text).

(** 2528-2546: the name as written; [env] gives the value of a variable, if it is defined *)
Definition this_name (env : text -> option val) (n : table_name) : res text :=
  match n with
  | Named n => Ok n
  | Path a b => Ok (dotted_name (Dots a b))
  | FromVariable x =>
    match env (t "@" ++ x) with
    | None => Err CompileError
    | Some VNone => Ok (t "#{env_variable__@" ++ x ++ t "}")
    | Some (VStr s) => Ok s
    | Some _ => Err CompileError
    end
  end.
(** 2547-2554 *)
Definition origin_of (n : text) : text := match assoc n mapping with Some m => m | None => n end.
Definition split_options (origin : text) : text * list text :=
  match Insert_Model.index_of 60 origin, rindex_of 62 origin with
  | Some i, Some j => (firstn i origin, split_go [44] 0 [] (between origin i j))
  | _, _ => (origin, [])
  end.
(** 2558-2565: the option of @use_output_type; [setting] is its value, if it is a text *)
Definition output_type_names : list (text * text) :=
  [(t "INSERT", t "I"); (t "UPDATE", t "U"); (t "UPDATE_INSERT", t "UI"); (t "UPDATE_DELETE_INSERT", t "UDI"); (t "DELETE_INSERT", t "DI")].
Definition add_setting (setting : option text) (options : list text) : list text :=
  match given setting with
  | None => options
  | Some s =>
    let s := upper up s in
    let s := match assoc s output_type_names with Some x => x | None => s end in
    if mem s options then options else options ++ [s]
  end.
(** 2569-2580 *)
Definition stdio (format : text) (dbs : list database) : list database * text :=
  match find (fun d => match assoc (t "driver") d, assoc (t "format") d with
                       | Some a, Some b => text_eqb a (t "textline") && text_eqb b format | _, _ => false end) dbs with
  | Some d => (dbs, match assoc (t "name") d with Some n => n | None => [] end)
  | None => (dbs ++ [[(t "name", t "stdio-" ++ format); (t "driver", t "textline"); (t "format", format)]], t "stdio-" ++ format)
  end.
Definition parse_table (env : text -> option val) (setting : option text) (dbs : list database) (r : reference) : res (info * list database) :=
  do n <- this_name env (r_this r);
  let origin := origin_of n in
  let (table, options) := split_options origin in
  let db := given (r_db r) in
  let (db, table) := match r_catalog r with
                     | Some c => (Some c, match db with Some d => d ++ t "." ++ table | None => table end)
                     | None => (db, table) end in
  let options := add_setting setting options in
  let '(dbs, db, table) :=
    if mem table [t "_"; t "."] then (dbs, t "-", t "&1")
    else if mem table [t ".txt"; t ".csv"; t ".json"] then let (dbs, n) := stdio (skipn 1 table) dbs in (dbs, n, t "&1")
    else match given db with
         | Some d => (dbs, d, table)
         | None => match files dbs table options with Some x => x | None => (dbs, t "--", table) end
         end in
  Ok (mkinfo db table (match given (r_alias r) with Some a => a | None => db ++ t "." ++ table end) (given (r_alias r)) origin options, dbs).

(** 298-309 *)
Definition update_types : list text := [t "I"; t "U"; t "UI"; t "UDI"; t "DI"].
Definition update_type (options : list text) : text :=
  match find (fun o => mem (upper up o) update_types) options with Some o => o | None => t "I" end.
Definition insert_output (i : info) : text :=
  if text_eqb (i_db i) (t "-") && text_eqb (i_name i) (t "_") then t "&.-.&1::id use I"
  else t "&." ++ i_db i ++ t "." ++ i_name i ++ t "::id use " ++ update_type (i_options i).
(** 205 *)
Definition delete_output (i : info) : text := t "&." ++ i_db i ++ t "." ++ i_name i ++ t "::id use DI".

(** 577-580; [use_output] is @use_output *)
Definition key_text (keys : list text) : text := match keys with [] => t "id" | _ => join (t "+") keys end.
Definition parts (d s : text) : list text := split_go d 0 [] s.
Definition select_output (keys : list text) (use_output : option text) (output : text) : text :=
  hd [] (parts (t "::") output) ++ t "::" ++ key_text keys ++
  (if infixb (t " use ") output then t " use " ++ last (parts (t " use ") output) []
   else t " use " ++ match given use_output with Some u => u | None => t "I" end).
(** 356-359, 378-382: the selects are compiled without @use_output (config.py:21-22 CONST_CONFIG_KEYS); their outputs give the keys and the type *)
Definition white (c : N) : bool := is_space_ascii c.
Definition union_step (acc : option text * text) (keys : list text) : option text * text :=
  let info := parts (t " use ") (last (parts (t "::") (select_output keys None (t "&.-.&1::id"))) []) in
  let key := match fst acc with Some k => Some k | None => Some (hd [] info) end in
  let ty := if text_eqb (snd acc) (t "I") then match info with _ :: y :: _ => strip white y | _ => snd acc end else snd acc in
  (key, ty).
Definition union_output (selects : list (list text)) (output : text) : text :=
  let (key, ty) := fold_left union_step selects (None, t "I") in
  hd [] (parts (t "::") output) ++ t "::" ++ match key with Some k => k | None => [] end ++ t " use " ++ ty.
(** 311-316: the output of an INSERT *)
Definition insert_into (env : text -> option val) (setting use_output : option text) (dbs : list database) (r : reference) (from : rows_from)
  : res (text * list database) :=
  do p <- parse_table env setting dbs r;
  let out := insert_output (fst p) in
  Ok (match from with
      | FromValues => out
      | FromSelect keys => select_output keys use_output out
      | FromUnion selects => union_output selects out
      end, snd p).

(** query.py:396-418: the name of a loader or outputer when the statement runs *)
Variable str_of : val -> text.
Definition text_of (v : val) : text := match v with VStr s => s | VNone => t "None" | _ => str_of v end.
Definition run_name (env : text -> option val) (name : text) : res text :=
  match parts (t ".") name with
  | db :: table :: _ =>
    if prefixb (t "#{env_variable__@") table && match last table 0 with 125 => true | _ => false end then
      match env (firstn (length table - 17) (skipn 16 table)) with
      | Some v => Ok (db ++ t "." ++ text_of v)
      | None => Err KeyError
      end
    else Ok name
  | _ => Ok name
  end.
(** The table a query reads: compiled with the variables [env], run with the variables [env']. *)
Definition read (env env' : text -> option val) (dbs : list database) (r : reference) : res text :=
  do p <- parse_table env None dbs r; run_name env' (i_db (fst p) ++ t "." ++ i_name (fst p)).
End Table.

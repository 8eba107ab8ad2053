(** Model of the choice of the database of a table written as a file (compiler.py:2581-2626 parse_table), over one statement.

    A reference is what is left after os.path.split and os.path.abspath: the directory and the file name, the parameters
    of a file:// URL ([] for a path), and the format option <csv>, <json>, ... of a .txt file.
    [alnum c] is c.isalpha() or c.isdigit(). A name with a uuid is modelled by a counter (never equal to another name). *)
From Verif Require Import Base Insert_Model.
Local Open Scope N_scope.

Record file_ref := mkref {
  f_dir : text; f_file : text; f_url : bool;
  f_params : list (text * text);
  f_format : option text }.

(** os.path.splitext: the part from the last dot on, unless only dots are before it. *)
Definition extension (file : text) : text :=
  match rindex_of 46 file with
  | None => []
  | Some i => if forallb (fun c => c =? 46) (firstn i file) then [] else skipn i file
  end.
(** compiler.py:2597-2598 *)
Definition driver_of (r : file_ref) : option text :=
  let e := extension (f_file r) in
  if text_eqb e (t ".txt") then Some (t "textline")
  else if text_eqb e (t ".json") then Some (t "json")
  else if text_eqb e (t ".csv") then Some (t "csv")
  else if text_eqb e (t ".xls") then Some (t "execl")
  else if text_eqb e (t ".xlsx") then Some (t "execl")
  else if f_url r then Some (t "textline") else None.

Inductive db_name := Dir (mangled : text) | Unique (mangled : text) (n : nat).
Record database := mkdb {
  d_name : db_name; d_driver : text; d_path : text; d_params : list (text * text); d_format : option text }.

Section Files.
Variable alnum : N -> bool.
(** compiler.py:2601 *)
Definition mangle (path : text) : text := map (fun c => if alnum c then c else 95) path.

Definition same_name (a : db_name) (b : db_name) : bool :=
  match a, b with
  | Dir x, Dir y => text_eqb x y
  | Unique x i, Unique y j => text_eqb x y && Nat.eqb i j
  | _, _ => false
  end.
(** compiler.py:2623-2626: the format of a textline database. *)
Definition set_format (driver : text) (fmt : option text) (d : database) : database :=
  match fmt with
  | Some f => if text_eqb driver (t "textline") then mkdb (d_name d) (d_driver d) (d_path d) (d_params d) (Some f) else d
  | None => d
  end.
(** compiler.py:2608-2619: search, or append; [fmt] is applied to the database found. *)
Fixpoint place (name : db_name) (driver path : text) (params : list (text * text)) (fmt : option text) (l : list database)
  : list database * db_name :=
  match l with
  | [] => ([set_format driver fmt (mkdb name driver path params None)], name)
  | d :: r =>
    if same_name (d_name d) name
    then (set_format driver fmt (mkdb name driver path (d_params d) (d_format d)) :: r, name)
    else if text_eqb (d_driver d) driver && text_eqb (d_path d) path && match params with [] => true | _ => false end
    then (set_format driver fmt d :: r, d_name d)
    else let (r', n) := place name driver path params fmt r in (d :: r', n)
  end.
(** One table of the statement; [n] counts the uuids. None: not a file ("--"). *)
Definition resolve (n : nat) (l : list database) (r : file_ref) : list database * option db_name :=
  match driver_of r with
  | None => (l, None)
  | Some driver =>
    let name := match f_params r with [] => Dir (mangle (f_dir r)) | _ => Unique (mangle (f_dir r)) n end in
    let (l', m) := place name driver (f_dir r) (f_params r) (f_format r) l in (l', Some m)
  end.
(** All tables of a statement, in the order in which they are compiled. *)
Fixpoint resolve_all (n : nat) (l : list database) (rs : list file_ref) : list database * list (option db_name) :=
  match rs with
  | [] => (l, [])
  | r :: rest => let (l1, m) := resolve n l r in
                 let (l2, ms) := resolve_all (S n) l1 rest in (l2, m :: ms)
  end.
(** The database a name stands for when the statement runs. *)
Definition lookup (l : list database) (name : db_name) : option database := find (fun d => same_name (d_name d) name) l.
End Files.

(** Model of the annotations in column names: compiler.py:2637-2700 parse_column (the part after the table qualifier) and 1984-1996
    compile_column.  [lower] is str.lower, [registered] says whether find_filter of the external package syncany finds a filter. *)
From Verif Require Import Base Str_Model Insert_Model.
Set Implicit Arguments.

(** compiler.py:101-105 TYPE_FILTERS *)
Definition type_filters : list (text * text) :=
  map (fun p => (t (fst p), t (snd p)))
  [("int", "int"); ("float", "float"); ("str", "str"); ("string", "str"); ("bytes", "bytes"); ("bool", "bool"); ("array", "array"); ("set", "set");
   ("map", "map"); ("objectid", "objectid"); ("uuid", "uuid"); ("datetime", "datetime"); ("date", "date"); ("time", "time");
   ("char", "str"); ("varchar", "str"); ("nchar", "str"); ("text", "str"); ("mediumtext", "str"); ("tinytext", "str");
   ("bigint", "int"); ("mediumint", "int"); ("smallint", "int"); ("tinyint", "int"); ("decimal", "decimal"); ("double", "float");
   ("boolean", "bool"); ("binary", "bytes"); ("varbinary", "bytes"); ("blob", "bytes"); ("timestamp", "datetime")]%string.

Section Annot.
Variable lower : text -> text.
Variable registered : text -> bool.

(** compiler.py:2669-2681, one turn of the loop: the filters it appends *)
Definition annotation (a : text) : list text :=
  match split_go [32%N] 0 [] a with
  | [] => []
  | w :: args =>
    let name := lower w in
    match assoc name type_filters with
    | Some f => [join [32%N] (f :: args)]
    | None => if registered name then [join [32%N] (name :: args)] else []
    end
  end.

(** l[i+1:j] *)
Definition between (s : text) (i j : nat) : text := firstn (j - S i) (skipn (S i) s).

(** The result of parse_column: column_name, typing_filters, typing_options.
    [convert]: the filter of an enclosing CAST; [dots]: the members named after the column; [origin]: the quoted name as written. *)
Record parsed := { p_name : text; p_filters : list text; p_options : list text }.
Definition parse_column (convert : option text) (dots : list text) (origin : text) : parsed :=
  let f0 := match convert with Some f => [f] | None => [] end in
  let (name, filters) :=
    match index_of 91 origin, rindex_of 93 origin with
    | Some i, Some j => (firstn i origin, f0 ++ flat_map annotation (split_go [59%N] 0 [] (between origin i j)))
    | _, _ => (origin, f0)
    end in
  {| p_name := match dots with [] => name | _ => name ++ [46%N] ++ join [46%N] dots end;
     p_filters := filters;
     p_options := match index_of 60 origin, rindex_of 62 origin with
                  | Some i, Some j => split_go [44%N] 0 [] (between origin i j)
                  | _, _ => []
                  end |}.
End Annot.

(** The column configuration: [Field c f] is the str $.c|f ($.c without a filter), [This f] the str :$.*|f, [Seq a b] the list [a, b]. *)
Inductive column := Field (c : text) (f : option text) | This (f : text) | Seq (a b : column).

(** compiler.py:1990-1994 compile_column_filter; [first] is typing_filter_column. Called with at least one filter. *)
Fixpoint compile_column_filter (first : column) (fs : list text) : column :=
  match fs with
  | [] => first
  | [f] => This f
  | f :: r => Seq first (compile_column_filter first r)
  end.
(** compiler.py:1984-1996 *)
Definition compile_column (c : text) (fs : list text) : column :=
  match fs with
  | [] => Field c None
  | [f] => Field c (Some f)
  | f :: r => let first := Field c (Some f) in Seq first (compile_column_filter first r)
  end.

(** Trusted reading of the external package: a field is read through its filter; in a list the value of the first part is the input of the
    second. *)
Fixpoint read {V} (field : text -> V) (apply : text -> V -> V) (input : V) (c : column) : V :=
  match c with
  | Field n None => field n
  | Field n (Some f) => apply f (field n)
  | This f => apply f input
  | Seq a b => read field apply (read field apply input a) b
  end.

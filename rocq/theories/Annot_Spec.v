(** Specification of annotated column names, independent of the compiler: name[type args;type args]<option,option>. *)
From Verif Require Import Base.

(** An annotation: a type and its arguments, separated by blanks. *)
Record ann := { a_type : text; a_args : list text }.
(** Parts with a separator between them. *)
Fixpoint sep (s : N) (l : list text) : text :=
  match l with [] => [] | [x] => x | x :: r => x ++ s :: sep s r end.
Definition written_ann (a : ann) : text := sep 32 (a_type a :: a_args a).
Definition brackets (l : N) (s : N) (r : N) (parts : list text) : text :=
  match parts with [] => [] | _ => l :: sep s parts ++ [r] end.
(** How the user writes the column. *)
Definition written (name : text) (anns : list ann) (options : list text) : text :=
  name ++ brackets 91 59 93 (map written_ann anns) ++ brackets 60 44 62 options.

(** Each conversion is applied to the value the previous one gave. *)
Definition through {V} (apply : text -> V -> V) (fs : list text) (v : V) : V := fold_left (fun v f => apply f v) fs v.

Definition without (cs : list N) (s : text) : Prop := forall c, In c s -> ~ In c cs.

(** The types, by the conversion they stand for (docs: the MySQL names of integers, floats, texts, ...). *)
Definition types : list (string * list string) :=
  [("int", ["int"; "bigint"; "mediumint"; "smallint"; "tinyint"]);
   ("float", ["float"; "double"]);
   ("decimal", ["decimal"]);
   ("str", ["str"; "string"; "char"; "varchar"; "nchar"; "text"; "mediumtext"; "tinytext"]);
   ("bytes", ["bytes"; "binary"; "varbinary"; "blob"]);
   ("bool", ["bool"; "boolean"]);
   ("datetime", ["datetime"; "timestamp"]);
   ("date", ["date"]); ("time", ["time"]); ("array", ["array"]); ("set", ["set"]); ("map", ["map"]);
   ("objectid", ["objectid"]); ("uuid", ["uuid"])]%string.
Definition type_of (w : text) : option text :=
  match find (fun p => existsb (fun n => text_eqb w (t n)) (snd p)) types with Some p => Some (t (fst p)) | None => None end.

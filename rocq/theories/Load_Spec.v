(** Configuration files that extend others: what they amount to. *)
From Verif Require Import Base Config_Model Config_Spec.

Section Spec.
(** The content of a configuration file; None when it cannot be read. *)
Variable content : text -> option conf.

(** The own settings of a file: everything but the list of files it extends. *)
Definition settings (f : conf) : conf := filter (fun e => negb (text_eqb (fst e) (t "extends"))) f.
(** "extends": a list of file names, or one file name. *)
Definition names_in (v : option cval) (es : list text) : Prop :=
  match v with None => es = [] | Some (CList l) => l = map CStr es | Some v => exists n, v = CStr n /\ es = [n] end.

(** [chain n l]: [l] is the list of the own settings of the file [n] and of all files it extends, in the order in which they apply: a file comes
    after all the files it extends, and these in the order they are listed. *)
Inductive chain : text -> list conf -> Prop :=
| chain_file : forall n f es l, content n = Some f -> names_in (assoc (t "extends") f) es -> chains es l -> chain n (l ++ [settings f])
with chains : list text -> list conf -> Prop :=
| chains_nil : chains [] []
| chains_cons : forall n r l1 l2, chain n l1 -> chains r l2 -> chains (n :: r) (l1 ++ l2).

(** [n] names [m] among the files it extends. *)
Definition extends (n m : text) : Prop := exists f es, content n = Some f /\ names_in (assoc (t "extends") f) es /\ In m es.
End Spec.

(** The value at a path according to a list of configurations of which later ones win. *)
Definition latest (path : list text) (l : list conf) : option cval :=
  fold_left (fun o c => match read c path with Some v => Some v | None => o end) l None.

(** The entries of a configuration that are lists to be concatenated. *)
Definition items (k : text) (c : conf) : list cval := match assoc k c with None => [] | Some (CList l) => l | Some v => [v] end.

(** Well-formed configurations: dicts have each key once, the sections are dicts, the databases have names, each once. *)
Definition proper (c : conf) : Prop :=
  NoDup (map fst c) /\
  (forall k, In k merge_sections -> match assoc k c with None => True | Some (CDict d) => NoDup (map fst d) | _ => False end) /\
  match assoc (t "databases") c with
  | None => True
  | Some (CList l) => Forall record_ok l /\ NoDup (record_names l) /\ Forall (fun e => match e with CDict w => NoDup (map fst w) | _ => True end) l
  | _ => False
  end.
(** What a setting is addressed by: a key that is not a section, a section and a name in it, a database and an option of it. *)
Definition setting (path : list text) : Prop :=
  (exists k, path = [k] /\ ~ In k (merge_sections ++ [t "databases"; t "caches"; t "pipelines"; t "states"; t "executes"])) \/
  (exists k n, path = [k; n] /\ In k merge_sections) \/ (exists n f, path = [t "databases"; n; f]).

(** ** The databases of a session *)
(** The two databases that exist without being configured. *)
Definition standard (n : text) : option conf :=
  if text_eqb n (t "-") then Some [(t "name", CStr (t "-")); (t "driver", CStr (t "textline"))]
  else if text_eqb n (t "--") then Some [(t "name", CStr (t "--")); (t "driver", CStr (t "memory"))] else None.
(** The options of a database according to the configuration alone. *)
Definition configured (c : conf) (n : text) : option conf := match read c [t "databases"; n] with Some (CDict d) => Some d | _ => standard n end.
Definition is_driver (d : conf) (names : list text) : Prop := exists s, assoc (t "driver") d = Some (CStr s) /\ In s names.
Definition text_drivers : list text := [t "textline"; t "json"; t "csv"].
Definition format_keys : list text := [t "encoding"; t "datetime_format"; t "date_format"; t "time_format"].

(** Where an initial file is found: as named, otherwise in the home directory of the program. *)
Definition located (there : text -> bool) (in_home : text -> text) (n m : text) : Prop :=
  (there n = true /\ m = n) \/ (there n = false /\ there (in_home n) = true /\ m = in_home n).

(** The options of a database, given the value of every setting: those set, or those of the standard database of that name. *)
Definition own (told : list text -> option cval) (n f : text) : option cval :=
  match told [t "databases"; n; t "name"] with
  | Some _ => told [t "databases"; n; f]
  | None => match standard n with Some d => assoc f d | None => None end
  end.
Definition has_driver (told : list text -> option cval) (n : text) (names : list text) : Prop := exists s, own told n (t "driver") = Some (CStr s) /\ In s names.

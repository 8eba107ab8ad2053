(** What references to tables mean (C196-C200). *)
From Verif Require Import Base PyVal Str_Spec Table_Syntax.
Local Open Scope N_scope.

(** A name written with options: table<o1,o2,...> and anything after it; without both marks there are no options. *)
Fixpoint commas (l : list text) : text := match l with [] => [] | [o] => o | o :: r => o ++ 44 :: commas r end.
Inductive written : text -> text -> list text -> Prop :=
| written_plain n : ~ In 60 n \/ ~ In 62 n -> written n n []
| written_options table options rest : ~ In 60 table -> ~ In 62 rest -> options <> [] -> (forall o, In o options -> ~ In 44 o) ->
    written (table ++ 60 :: commas options ++ 62 :: rest) table options.

(** Names separated by dots. *)
Fixpoint names_in (d : dotted) : list text := match d with Part n => [n] | Dots a b => names_in a ++ names_in b end.
Fixpoint dots (l : list text) : text := match l with [] => [] | [n] => n | n :: r => n ++ 46 :: dots r end.
Inductive spelled : table_name -> text -> Prop :=
| spelled_name n : spelled (Named n) n
| spelled_path a b : spelled (Path a b) (dots (names_in a ++ names_in b)).

(** The database and the table within it that a reference names, before special names are considered: with a catalog, the catalog is the database. *)
Inductive qualified : reference -> text -> option text -> text -> Prop :=
| qualified_not d th al tb : (d = None \/ d = Some []) -> qualified (mkref None d th al) tb None tb
| qualified_db d th al tb : d <> [] -> qualified (mkref None (Some d) th al) tb (Some d) tb
| qualified_catalog c d th al tb : c <> [] -> (d = None \/ d = Some []) -> qualified (mkref (Some c) d th al) tb (Some c) tb
| qualified_full c d th al tb : c <> [] -> d <> [] -> qualified (mkref (Some c) (Some d) th al) tb (Some c) (d ++ 46 :: tb).

Definition special (n : text) : Prop := In n [t "_"; t "."; t ".txt"; t ".csv"; t ".json"].

(** The types of update, and what the setting @use_output_type selects. *)
Definition type_names : list text := [t "I"; t "U"; t "UI"; t "UDI"; t "DI"].
Definition setting_names : list (text * text) :=
  [(t "INSERT", t "I"); (t "UPDATE", t "U"); (t "UPDATE_INSERT", t "UI"); (t "UPDATE_DELETE_INSERT", t "UDI"); (t "DELETE_INSERT", t "DI");
   (t "I", t "I"); (t "U", t "U"); (t "UI", t "UI"); (t "UDI", t "UDI"); (t "DI", t "DI")].
(** The type of an INSERT: the first option that is one, in any case; else the one of the setting; else I. *)
Inductive chosen (upper : text -> text) : list text -> option text -> text -> Prop :=
| chosen_option pre o post setting : In (upper o) type_names -> (forall x, In x pre -> ~ In (upper x) type_names) ->
    chosen upper (pre ++ o :: post) setting o
| chosen_setting options s ty : (forall x, In x options -> ~ In (upper x) type_names) -> In (upper s, ty) setting_names ->
    chosen upper options (Some s) ty
| chosen_default options setting : (forall x, In x options -> ~ In (upper x) type_names) ->
    (forall s, setting = Some s -> ~ In (upper s) (map fst setting_names)) -> chosen upper options setting (t "I").

(** A text by which no part of an output is mistaken for another. *)
Definition clear (n : text) : Prop := forall i, ~ occurs_at (t "::") (n ++ t ":") i.

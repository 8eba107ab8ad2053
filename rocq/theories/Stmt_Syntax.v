(** Statements as sqlglot hands them to compiler.py:135-177 Compiler.compile_expression. What the parts of queries look like is left open. *)
From Verif Require Import Base.
Set Implicit Arguments.

(** The argument of a command: compiler.py:147-167 tell a plain text, a constant and anything else apart. *)
Inductive argument := ArgText (s : text) | ArgConst (s : text) | ArgOther.
(** The target of INTO: compiler.py:611-620 takes a table that is a parameter that is a name; the rest is refused. *)
Inductive destination := ToVariable (x : text) | ToOther.
(** What sqlglot makes of a statement (compiler.py:135-176). *)
Inductive parsed (Q : Type) :=
| PDelete (q : Q) | PSelect (q : Q) (into : option destination) | PUnion (q : Q) (into : bool) | PInsert (q : Q) (into : bool)
| PCommand (keyword : text) (arg : argument) | PUse (name : text) | PSet (item : text) | POther.
Arguments POther {Q}. Arguments PCommand {Q}. Arguments PUse {Q}. Arguments PSet {Q}.


(** What the command line and the environment say, independent of the code. *)
From Verif Require Import Base Globals_Model.

Definition quote (c : N) : Prop := c = 34%N \/ c = 39%N.

(** [gives arg n v]: the argument gives the variable [n] the value [v]: --n, --n=value, --n='value' or --n="value". *)
Inductive gives : text -> text -> gval -> Prop :=
| gives_flag n : ~ In 61%N n -> gives (t "--" ++ n) n GTrue
| gives_value n v : ~ In 61%N n -> ~ In 61%N v -> (forall c r, v = c :: r -> ~ quote c) -> gives (t "--" ++ n ++ t "=" ++ v) n (GStr v)
| gives_quoted n q v : ~ In 61%N n -> quote q -> ~ In 61%N v -> gives (t "--" ++ n ++ t "=" ++ [q] ++ v ++ [q]) n (GStr v).

(** [names arg n]: the argument is about the variable [n], well written or not. *)
Definition names (arg n : text) : Prop := ~ In 61%N n /\ (arg = t "--" ++ n \/ exists r, arg = t "--" ++ n ++ t "=" ++ r).

(** The four variables every process has. *)
Inductive built_in (home syncany_home cwd platform : text) : text -> text -> Prop :=
| is_home : built_in home syncany_home cwd platform (t "home") home
| is_syncany_home : built_in home syncany_home cwd platform (t "syncany_home") syncany_home
| is_cwd : built_in home syncany_home cwd platform (t "cwd") cwd
| is_platform : built_in home syncany_home cwd platform (t "platform") platform.

(** A command history. *)
From Verif Require Import Base.
Inductive op := Enter (now : text) (command : text) | Restart.
(** The commands entered that are remembered, oldest first ([forget] says which are not). *)
Fixpoint entered (forget : text -> bool) (ops : list op) : list text :=
  match ops with
  | [] => []
  | Enter _ c :: r => if forget c then entered forget r else c :: entered forget r
  | Restart :: r => entered forget r
  end.
Definition newest {A} (n : nat) (l : list A) : list A := firstn n (rev l).
Definition restarts (ops : list op) : nat := length (filter (fun o => match o with Restart => true | _ => false end) ops).

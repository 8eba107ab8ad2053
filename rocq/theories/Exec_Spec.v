(** Scheduling vocabulary. *)
From Verif Require Import Base.

(** A first-in-first-out schedule: what was run, then what is still waiting, is what was waiting, then what was added. *)
Definition fifo {R} (waiting ran added waiting' : list R) : Prop := ran ++ waiting' = waiting ++ added.

(** Independence of two actions on a world. *)
Definition commute {W} (f g : W -> W) : Prop := forall w, f (g w) = g (f w).

(** Occurrences. *)
Definition once_each {R} (l : list R) (xs : list R) : Prop := NoDup l /\ forall x, In x l <-> In x xs.

(** When a temporary table of a subquery should exist. *)
From Verif Require Import Base Temp_Model.

Section Spec.
Variable tasks : nat -> task.
(** Task [i] reads table [n] (and does not rewrite it in place). *)
Definition reads (i : nat) (n : text) : Prop := loads_from (tasks i) = Some n /\ writes_to (tasks i) <> Some n.
Definition closed (h : list ev) (i : nat) : Prop := exists b, In (Close i b) h.
(** Nobody will read the table again: every task that was compiled with it as its source has finished, and no task is
    rewriting it in place. *)
Definition unused (h : list ev) (n : text) : Prop :=
  forall i, In (Open i) h -> loads_from (tasks i) = Some n -> reads i n /\ closed h i.
(** Every task is compiled once, finishes at most once, and after it was compiled. *)
Definition once (h : list ev) : Prop :=
  (forall h1 h2 i, h = h1 ++ Open i :: h2 -> ~ In (Open i) h1) /\
  (forall h1 h2 i b, h = h1 ++ Close i b :: h2 -> In (Open i) h1 /\ ~ closed h1 i).
(** A task writes after it was compiled, and no reader of its table finishes in between. *)
Definition writes_in_time (h : list ev) : Prop :=
  forall h1 h2 i n, h = h1 ++ Write i :: h2 -> writes_to (tasks i) = Some n ->
    exists a b, h1 = a ++ Open i :: b /\ forall j s, reads j n -> ~ In (Close j s) b.
Definition exists_after (h : list ev) (n : text) : Prop := In n (store (run tasks h)).
End Spec.

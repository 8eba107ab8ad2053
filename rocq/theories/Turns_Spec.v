(** Vocabulary for the events of a statement and its subqueries. *)
From Verif Require Import Base Turns_Model.

Section Spec.
Variable Id : Type.
Implicit Types (g t d : tasker Id) (tr : list (event Id)).

(** [within g t]: t is g or one of its subqueries, at any depth. *)
Inductive within : tasker Id -> tasker Id -> Prop :=
| within_self : forall g, within g g
| within_dep : forall g d t, In d (tdeps g) -> within d t -> within g t.
Definition subquery t d : Prop := exists d0, In d0 (tdeps t) /\ within d0 d.

Fixpoint ids g : list Id := match g with Tasker i _ ds => i :: flat_map ids ds end.

Definition about (e : event Id) : Id := match e with Batched i => i | Reduced i => i | Closed i _ => i end.
Definition unmentioned (i : Id) tr : Prop := forall e, In e tr -> about e <> i.
(** Nothing of [i] happens after anything of [j]. *)
Definition precedes tr (i j : Id) : Prop := forall l1 e l2, tr = l1 ++ e :: l2 -> about e = j -> unmentioned i l2.

Variable eqb : Id -> Id -> bool.
Definition count (p : event Id -> bool) tr : nat := length (filter p tr).
Definition batches (i : Id) tr : nat := count (fun e => match e with Batched j => eqb i j | _ => false end) tr.
Definition closings (i : Id) tr : nat := count (fun e => match e with Closed j _ => eqb i j | _ => false end) tr.
Definition reductions (i : Id) tr : nat := count (fun e => match e with Reduced j => eqb i j | _ => false end) tr.

(** [path] goes from a subquery of [g] (or [g] itself) up to [g], each the user of the one before. *)
Inductive up_to : tasker Id -> list Id -> Prop :=
| up_self : forall g, up_to g [tid g]
| up_dep : forall g d path, In d (tdeps g) -> up_to d path -> up_to g (path ++ [tid g]).
End Spec.
Arguments within {Id}. Arguments subquery {Id}. Arguments ids {Id}. Arguments about {Id}. Arguments unmentioned {Id}. Arguments precedes {Id}.
Arguments batches {Id}. Arguments closings {Id}. Arguments reductions {Id}. Arguments up_to {Id}. Arguments count {Id}.

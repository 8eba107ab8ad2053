(** Scoped variables as a function of the history of operations. *)
From Verif Require Import Base.

Section Spec.
Variable V : Type.
Inductive event := Open (parent : option nat) | Put (scope : nat) (k : text) (v : V).

(** The scopes opened by a history are numbered 0, 1, ... in order of creation. *)
Fixpoint opened (h : list event) : list (option nat) :=
  match h with [] => [] | Open p :: r => p :: opened r | Put _ _ _ :: r => opened r end.
(** Every operation refers to scopes opened before it. *)
Definition wellformed (h : list event) : Prop :=
  forall l e r, h = l ++ e :: r ->
    match e with Open (Some p) => p < length (opened l) | Open None => True | Put s _ _ => s < length (opened l) end.

(** The value last put under [k] in scope [s]. *)
Definition holds (h : list event) (s : nat) (k : text) (v : V) : Prop :=
  exists l r, h = l ++ Put s k v :: r /\ forall v', ~ In (Put s k v') r.
Definition unset (h : list event) (s : nat) (k : text) : Prop := forall v, ~ In (Put s k v) h.
(** The bare name of '@x' is x. *)
Definition bare (k b : text) : Prop := k = 64%N :: b.

Inductive reads (h : list event) : nat -> text -> option V -> Prop :=
| reads_here : forall s k v, holds h s k v -> reads h s k (Some v)
| reads_bare : forall s k b v, unset h s k -> bare k b -> holds h s b v -> reads h s k (Some v)
| reads_outer : forall s k p r, unset h s k -> (forall b, bare k b -> unset h s b) ->
    nth_error (opened h) s = Some (Some p) -> reads h p k r -> reads h s k r
| reads_nothing : forall s k, unset h s k -> (forall b, bare k b -> unset h s b) ->
    nth_error (opened h) s = Some None -> reads h s k None.

(** [a] is [s] or an enclosing scope of [s]. *)
Inductive encloses (h : list event) : nat -> nat -> Prop :=
| encloses_self : forall s, encloses h s s
| encloses_outer : forall a s p, nth_error (opened h) s = Some (Some p) -> encloses h a p -> encloses h a s.
End Spec.
Arguments Open {V}. Arguments Put {V}.

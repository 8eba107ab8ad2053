(** What YIELD_ARRAY means, independent of generators. *)
From Verif Require Import Base Yield_Syntax.
Local Open Scope nat_scope.
Section Spec.
Variable V : Type.
Variable null : V.
Variable is_array : V -> list V -> Prop.             (* the value is an array with these elements *)
(** What is yielded of a value: the elements of an array; another value is yielded itself. *)
Inductive yielded (v : V) : list V -> Prop :=
| Y_array : forall l, is_array v l -> yielded v l
| Y_other : (forall l, ~ is_array v l) -> yielded v [v].
(** The value of column [i] in row [k] (from 0) of the rows made of [r]. *)
Inductive shows (r : yrow V) (k : nat) : item V -> V -> Prop :=
| Sh_plain : forall e, shows r k (Plain e) (e r)
| Sh_element : forall e l v, yielded (e r) l -> nth_error l k = Some v -> shows r k (Yield e) v
| Sh_over : forall e l, yielded (e r) l -> length l <= k -> shows r k (Yield e) null.
(** [out] are the rows made of [r]: as many as the longest of the yielded lists has elements. *)
Definition longest (items : list (item V)) (r : yrow V) (n : nat) : Prop :=
  (exists e l, In (Yield e) items /\ yielded (e r) l /\ length l = n) /\ (forall e l, In (Yield e) items -> yielded (e r) l -> length l <= n).
Definition expansion (items : list (item V)) (r : yrow V) (out : list (list V)) : Prop :=
  longest items r (length out) /\ forall k vs, nth_error out k = Some vs -> Forall2 (shows r k) items vs.
(** Without YIELD_ARRAY a row makes one row. *)
Definition one_row (items : list (item V)) (r : yrow V) (out : list (list V)) : Prop := exists vs, out = [vs] /\ Forall2 (shows r 0) items vs.
Definition is_yield (i : item V) : Prop := match i with Yield _ => True | Plain _ => False end.
Definition rows_from (items : list (item V)) (r : yrow V) (out : list (list V)) : Prop :=
  (Exists is_yield items -> expansion items r out) /\ (~ Exists is_yield items -> one_row items r out).
(** Something is yielded. *)
Definition yields_something (items : list (item V)) (r : yrow V) : Prop := Exists is_yield items -> exists e v l, In (Yield e) items /\ yielded (e r) (v :: l).
End Spec.

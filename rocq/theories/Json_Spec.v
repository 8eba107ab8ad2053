(** Specification of JSON documents and paths, independent of the functions of Json_Model (only the type of
    documents is shared). *)
From Verif Require Import Base PyVal Utils_Spec Json_Model.
Open Scope nat_scope.

(** A step of a path: a member of an object or an element of an array (from 0). *)
Inductive step := Name (k : text) | Idx (n : nat).

(** The first entry of key [k]. *)
Inductive entry (k : text) : list (text * json) -> json -> Prop :=
| entry_here : forall v m, entry k ((k, v) :: m) v
| entry_later : forall k' v' m v, k' <> k -> entry k m v -> entry k ((k', v') :: m) v.

(** [x] is the part of document [d] that the steps lead to. *)
Inductive at_path : json -> list step -> json -> Prop :=
| ap_here : forall d, at_path d [] d
| ap_name : forall m k x s y, entry k m x -> at_path x s y -> at_path (JObj m) (Name k :: s) y
| ap_idx : forall l n x s y, nth_error l n = Some x -> at_path x s y -> at_path (JArr l) (Idx n :: s) y.

(** Names that are written without quotes. *)
Definition plain (k : text) : Prop :=
  k <> [] /\ Forall (fun c => c <> 46 /\ c <> 91 /\ c <> 93)%N k /\ k <> [42%N].
(** How a step is written: .name, [digits], or the name in double quotes between brackets. *)
Inductive step_text : step -> text -> Prop :=
| st_name : forall k, plain k -> step_text (Name k) (46%N :: k)
| st_idx : forall ds, digits ds -> step_text (Idx (Z.to_nat (decval ds))) (91%N :: ds ++ [93%N])
| st_quoted : forall k, ~ In 93%N k -> k <> [42%N] -> step_text (Name k) (91%N :: (34%N :: k ++ [34%N]) ++ [93%N]).
(** How a path is written: "$" followed by its steps. *)
Definition path_text (s : list step) (p : text) : Prop :=
  exists ts, Forall2 step_text s ts /\ p = 36%N :: concat ts.

(** Neither path leads through the other. *)
Definition disjoint (s s' : list step) : Prop := (forall r, s' <> s ++ r) /\ (forall r, s <> s' ++ r).

(** Arrays and objects. *)
Definition container (d : json) : Prop := match d with JArr _ | JObj _ => True | _ => False end.

(** [x] is an element of the array or a member of the object [d]; [nested d n]: something lies [n] levels
    below the top of [d]. *)
Inductive child : json -> json -> Prop :=
| ch_elem : forall l x, In x l -> child (JArr l) x
| ch_member : forall m k x, In (k, x) m -> child (JObj m) x.
Inductive nested : json -> nat -> Prop :=
| nest_top : forall d, nested d 0
| nest_child : forall d x n, child d x -> nested x n -> nested d (S n).

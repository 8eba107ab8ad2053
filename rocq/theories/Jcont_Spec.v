(** When two JSON documents are the same, independent of the program: numbers by value, arrays element by element, objects member by member whatever their order. *)
From Verif Require Import Base PyVal Json_Model Json_Spec.

Inductive same_json : json -> json -> Prop :=
| same_null : same_json JNull JNull
| same_scalar : forall v w, pyeq v w = true -> same_json (JScalar v) (JScalar w)
| same_string : forall s, same_json (JStr s) (JStr s)
| same_array : forall l l', length l = length l' ->
    (forall i x y, nth_error l i = Some x -> nth_error l' i = Some y -> same_json x y) -> same_json (JArr l) (JArr l')
| same_object : forall m m', (forall k, (exists x, In (k, x) m) <-> (exists y, In (k, y) m')) ->
    (forall k x y, In (k, x) m -> In (k, y) m' -> same_json x y) -> same_json (JObj m) (JObj m').

(** The names of every object in the document are distinct. *)
Inductive well_formed : json -> Prop :=
| wf_null : well_formed JNull
| wf_scalar : forall v, well_formed (JScalar v)
| wf_string : forall s, well_formed (JStr s)
| wf_array : forall l, (forall x, In x l -> well_formed x) -> well_formed (JArr l)
| wf_object : forall m, NoDup (map fst m) -> (forall k x, In (k, x) m -> well_formed x) -> well_formed (JObj m).

(** What MySQL means by a candidate being contained in a document: an array contains a candidate that is no array when one of its elements does, and an array when each
    element of that is contained in one of its elements; an object contains an object when it has every member of it, with a value that contains the candidate's; other documents when
    they are the same. *)
Inductive contains : json -> json -> Prop :=
| c_same : forall d c, ~ container d -> ~ container c -> same_json d c -> contains d c
| c_elem : forall l c x, (forall l', c <> JArr l') -> In x l -> contains x c -> contains (JArr l) c
| c_array : forall l l', (forall y, In y l' -> exists x, In x l /\ contains x y) -> contains (JArr l) (JArr l')
| c_object : forall m m', (forall k y, In (k, y) m' -> exists x, In (k, x) m /\ contains x y) -> contains (JObj m) (JObj m').

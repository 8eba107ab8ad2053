(** Reading a configuration along a path: in a dict by key, in a list of named records by name. *)
From Verif Require Import Base Config_Model.

Definition has_name (n : text) (e : cval) : bool :=
  match e with CDict d => match assoc (t "name") d with Some (CStr s) => text_eqb s n | _ => false end | _ => false end.
Fixpoint look (v : cval) (path : list text) : option cval :=
  match path with
  | [] => Some v
  | k :: path =>
    match v with
    | CDict d => match assoc k d with Some w => look w path | None => None end
    | CList l => match find (has_name k) l with Some w => look w path | None => None end
    | _ => None
    end
  end.
Definition read (c : conf) (path : list text) : option cval := look (CDict c) path.
(** [p] is not inside the part of the configuration addressed by [key], nor is it one of the enclosing parts. *)
Definition apart (key p : list text) : Prop := (forall r, p <> key ++ r) /\ (forall r, key <> p ++ r).

(** Every database is a record with a name. *)
Definition record_ok (e : cval) : Prop := exists d n, e = CDict d /\ assoc (t "name") d = Some (CStr n).
Definition databases_ok (c : conf) : Prop := exists l, assoc (t "databases") c = Some (CList l) /\ Forall record_ok l.
(** ... and no two share it. *)
Definition record_names (l : list cval) : list text :=
  concat (map (fun e => match e with CDict d => match assoc (t "name") d with Some (CStr n) => [n] | _ => [] end | _ => [] end) l).
Definition databases_unique (c : conf) : Prop := forall l, assoc (t "databases") c = Some (CList l) -> NoDup (record_names l).

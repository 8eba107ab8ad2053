(** Model of syncanysql/calculaters/mysql_funcs/json_funcs.py:200-212 JSON_CONTAINS and 314-322 JSON_VALID, over the documents of Json_Model. *)
From Verif Require Import Base PyVal Utils_Model Agg_Model Json_Model.
Open Scope nat_scope.

(** Python [==] of two decoded values: null, numbers and booleans by value, strings, lists elementwise, dicts as sets of entries (the keys of a dict are
    distinct).  A value is not equal to one of another kind. *)
Fixpoint jeq (a b : json) : bool :=
  match a, b with
  | JNull, JNull => true
  | JScalar v, JScalar w => pyeq v w
  | JStr s, JStr r => text_eqb s r
  | JArr l, JArr l' =>
    (fix go (l l' : list json) : bool :=
       match l, l' with [], [] => true | x :: r, y :: r' => jeq x y && go r r' | _, _ => false end) l l'
  | JObj m, JObj m' =>
    Nat.eqb (length m) (length m') &&
    (fix go (m : list (text * json)) : bool :=
       match m with [] => true | (k, x) :: r => match assoc k m' with Some y => jeq x y | None => false end && go r end) m
  | _, _ => false
  end.

Section Funcs.
Variable loads : text -> option json.
(** json_funcs.py:200-212: both arguments are decoded when they are JSON text; the part at the path is compared with the candidate. *)
Definition json_contains (target candidate : json) (path : text) : res Z :=
  do x <- get_path (decode loads target) path;
  Ok (if jeq x (decode loads candidate) then 1 else 0)%Z.
(** json_funcs.py:314-322. *)
Definition json_valid (v : json) : Z :=
  match v with JStr s => match loads s with Some _ => 1 | None => 0 end | _ => 1 end.
End Funcs.

(** What INSERT stores, independently of the compiler. *)
From Verif Require Import Base PyVal.

(** The type of a column: the one written, or else the type of the first number in it, row by row. *)
Definition is_number_type (v : val) (ty : text) : Prop :=
  (exists b, v = VBool b) /\ ty = t "bool" \/ (exists z, v = VInt z) /\ ty = t "int" \/ (exists f, v = VFloat f) /\ ty = t "float".
Definition column_value (i : nat) (tuple : list val) : val := nth i tuple VNone.
Inductive column_type (i : nat) : list (list val) -> option text -> Prop :=
| CT_none : column_type i [] None
| CT_here tuple r ty : is_number_type (column_value i tuple) ty -> column_type i (tuple :: r) (Some ty)
| CT_later tuple r ty : (forall ty', ~ is_number_type (column_value i tuple) ty') -> column_type i r ty -> column_type i (tuple :: r) ty.

(** The row SQL stores for a tuple. *)
Definition stored_row (names : list text) (tuple : list val) : list (text * val) :=
  map (fun p => (snd p, column_value (fst p) tuple)) (combine (seq 0 (length names)) names).

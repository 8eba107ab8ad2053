(** CAST(e AS type), written as a call of the function "CAST AS type". *)
From Verif Require Import Base PyVal Expr_Syntax Str_Model.

Definition cast_as (type : text) (e : expr) : expr := EFun (t "CAST AS " ++ type) [e].
(** CAST(n AS type) of a column. *)
Definition cast_column (e : expr) : option text :=
  match e with EFun k [ECol n] => if prefixb (t "CAST AS ") k then Some n else None | _ => None end.

(** Select lists with YIELD_ARRAY. *)
From Verif Require Import Base.
Section Syntax.
Variable V : Type.
Definition yrow := text -> V.
Inductive item :=
| Plain (e : yrow -> V)                              (* an expression without YIELD_ARRAY *)
| Yield (e : yrow -> V).                             (* YIELD_ARRAY(e) *)
End Syntax.
Arguments Plain {V}. Arguments Yield {V}.

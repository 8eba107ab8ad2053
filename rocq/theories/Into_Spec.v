(** SELECT ... INTO. *)
From Verif Require Import Base.
Section Spec.
Variable V : Type.
Variable null : V.
(** The cell of a row in a column; a row that lacks the column has NULL there. *)
Inductive cell : list (text * V) -> text -> V -> Prop :=
| cell_here : forall k v r, cell ((k, v) :: r) k v
| cell_later : forall k k' v v' r, k <> k' -> cell r k v -> cell ((k', v') :: r) k v
| cell_absent : forall k, cell [] k null.
(** The cells of a column, from the first row to the last. *)
Definition column (rows : list (list (text * V))) (k : text) (vs : list V) : Prop := Forall2 (fun r v => cell r k v) rows vs.
End Spec.

(** Memory tables as a function of the history of calls, independent of the engine. *)
From Verif Require Import Base.
Set Implicit Arguments.

Section Spec.
Variable Row : Type.
Inductive event := EPush (name : text) (rows : list Row) | EGet (name : text) | EPop (name : text).

(** The rows in table [n] after the history [h], newest event first: everything pushed to it since it was last popped. *)
Fixpoint content (n : text) (h : list event) : list Row :=
  match h with
  | [] => []
  | EPush m rows :: r => if text_eqb n m then content n r ++ rows else content n r
  | EPop m :: r => if text_eqb n m then [] else content n r
  | EGet _ :: r => content n r
  end.
(** What the calls return, given the history before them. *)
Fixpoint returned (before : list event) (cs : list event) : list (option (list Row)) :=
  match cs with
  | [] => []
  | c :: r => match c with EPush _ _ => None | EGet n => Some (content n before) | EPop n => Some (content n before) end
              :: returned (c :: before) r
  end.
End Spec.
Arguments EGet {Row}. Arguments EPop {Row}.

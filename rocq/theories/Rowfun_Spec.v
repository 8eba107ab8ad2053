(** What ROW_INDEX and ROW_LAST mean, independent of the calculaters: no state, but the rows before the present one, the last of them first. *)
From Verif Require Import Base Assign_Syntax Rowfun_Syntax.
Section Spec.
Variable V : Type.
Variable L : values V.
Variable number : nat -> V.
Fixpoint value (before : list (row V)) (r : row V) (e : rexpr V) : V :=
  match e with
  | RConst v => v
  | RCol n => r n
  | RIndex => number (S (length before))             (* rows are counted from 1 *)
  | RLast e => match before with [] => v_null L | r' :: before' => value before' r' e end      (* the value of e in the row before; NULL in the first row *)
  | RCall f args => v_fn L f (map (value before r) args)
  | RIf c a b => if v_true L (value before r c) then value before r a else value before r b
  | RIfNull a b => if v_isnull L (value before r a) then value before r b else value before r a
  end.
Fixpoint results (items : list (rexpr V)) (before rows : list (row V)) : list (list V) :=
  match rows with [] => [] | r :: rows => map (value before r) items :: results items (r :: before) rows end.

(** Expressions without these functions; and those in which they stand where they are computed once for every row: not within the branches of IF, not within IFNULL. *)
Inductive free : rexpr V -> Prop :=
| F_const : forall v, free (RConst v) | F_col : forall n, free (RCol n) | F_call : forall f l, Forall free l -> free (RCall f l)
| F_if : forall c a b, free c -> free a -> free b -> free (RIf c a b) | F_ifnull : forall a b, free a -> free b -> free (RIfNull a b).
Inductive steady : rexpr V -> Prop :=
| S_free : forall e, free e -> steady e | S_index : steady RIndex | S_last : forall e, steady e -> steady (RLast e)
| S_call : forall f l, Forall steady l -> steady (RCall f l) | S_if : forall c a b, steady c -> free a -> free b -> steady (RIf c a b).
End Spec.

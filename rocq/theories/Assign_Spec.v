(** What a select list with assignments means: row by row, item by item, from left to right; every operand is computed once, and only the chosen branch. *)
From Verif Require Import Base Assign_Syntax.

Set Implicit Arguments.
Section Spec.
Variable V : Type.
Variable L : values V.
Definition vars := text -> V.                        (* NULL for a variable that is not set *)
Definition assign (st : vars) (x : text) (v : V) : vars := fun y => if text_eqb y x then v else st y.

Section Row.
Variable r : row V.
Fixpoint sem (e : sexpr V) (st : vars) {struct e} : V * vars :=
  match e with
  | SConst v => (v, st)
  | SCol n => (r n, st)
  | SVar x => (st x, st)
  | SAssign x a => let (v, st1) := sem a st in (v, assign st1 x v)
  | SCall f args =>
    let (vs, st1) := (fix all (l : list (sexpr V)) (st : vars) : list V * vars :=
      match l with [] => ([], st) | a :: l => let (v, st1) := sem a st in let (vs, st2) := all l st1 in (v :: vs, st2) end) args st in
    (v_fn L f vs, st1)
  | SIf c a b => let (v, st1) := sem c st in if v_true L v then sem a st1 else sem b st1
  | SIfNull a b => let (v, st1) := sem a st in if v_isnull L v then sem b st1 else (v, st1)
  | SCoalesce a l =>
    let (v, st1) := sem a st in
    if v_isnull L v then
      (fix first (l : list (sexpr V)) (st : vars) : V * vars :=
        match l with
        | [] => (v_null L, st)
        | a :: l => let (v, st1) := sem a st in match l with [] => (v, st1) | _ => if v_isnull L v then first l st1 else (v, st1) end
        end) l st1
    else (v, st1)
  | SCase this ifs els =>
    let (o, st0) := match this with None => (None, st) | Some e => let (v, st0) := sem e st in (Some v, st0) end in
    (fix first (l : list (sexpr V * sexpr V)) (st : vars) : V * vars :=
      match l with
      | [] => sem els st
      | (w, a) :: l =>
        let (v, st1) := sem w st in
        if v_true L (match o with None => v | Some o => v_fn L (t "eq") [o; v] end) then sem a st1 else first l st1
      end) ifs st0
  end.
Fixpoint sem_items (items : list (sexpr V)) (st : vars) : list V * vars :=
  match items with [] => ([], st) | a :: l => let (v, st1) := sem a st in let (vs, st2) := sem_items l st1 in (v :: vs, st2) end.
End Row.
Fixpoint sem_rows (items : list (sexpr V)) (rows : list (row V)) (st : vars) : list (list V) * vars :=
  match rows with [] => ([], st) | r :: rows => let (o, st1) := sem_items r items st in let (os, st2) := sem_rows items rows st1 in (o :: os, st2) end.

(** No assignment in it. *)
Fixpoint reads_only (e : sexpr V) : bool :=
  match e with
  | SConst _ | SCol _ | SVar _ => true
  | SAssign _ _ => false
  | SCall _ l => forallb reads_only l
  | SIf c a b => reads_only c && reads_only a && reads_only b
  | SIfNull a b => reads_only a && reads_only b
  | SCoalesce a l => reads_only a && forallb reads_only l
  | SCase this ifs els =>
    match this with None => true | Some e => reads_only e end && forallb (fun wt => reads_only (fst wt) && reads_only (snd wt)) ifs && reads_only els
  end.
(** A constant for the compiler: a literal or a variable. *)
Definition constant (e : sexpr V) : bool := match e with SConst _ | SVar _ => true | _ => false end.
Definition literal (e : sexpr V) : bool := match e with SConst _ => true | _ => false end.
Fixpoint different (l : list (sexpr V)) : Prop :=
  match l with
  | [] => True
  | e :: r => (forall v e' v', e = SConst v -> In e' r -> e' = SConst v' -> v_same L v v' = false) /\ different r
  end.
Definition named (x : text) : Prop := forall y, x <> 64%N :: y.

(** The select items for which the claim is made: assigned names do not start with an at sign; no assignment in the operands of IFNULL and
    COALESCE but the last; if the WHENs of a simple CASE are all constants, they are different literals, else there is no assignment in its operand and its WHENs. *)
Fixpoint plain (e : sexpr V) : Prop :=
  match e with
  | SConst _ | SCol _ => True
  | SVar x => named x
  | SAssign x a => named x /\ plain a
  | SCall _ l => (fix all l := match l with [] => True | a :: l => plain a /\ all l end) l
  | SIf c a b => plain c /\ plain a /\ plain b
  | SIfNull a b => reads_only a = true /\ plain a /\ plain b
  | SCoalesce a l =>
    reads_only a = true /\ plain a /\ (fix all l := match l with [] => True | a :: l => (l <> [] -> reads_only a = true) /\ plain a /\ all l end) l
  | SCase this ifs els =>
    match this with
    | None => True
    | Some e => plain e /\
                (forallb constant (map fst ifs) = true -> forallb literal (map fst ifs) = true /\ different (map fst ifs)) /\
                (forallb constant (map fst ifs) = false -> reads_only e = true /\ forall w, In w (map fst ifs) -> reads_only w = true)
    end /\ (fix all l := match l with [] => True | (w, a) :: l => plain w /\ plain a /\ all l end) ifs /\ plain els
  end.
End Spec.

(** Model of ROW_INDEX and ROW_LAST: calculaters/row_calculater.py:8-35, and compiler.py:1540-1541, 1597-1620 (calls), 1641-1649 (If), 1650-1669 (IfNull) of compile_calculate.

    Trusted reading of the package: every call in the compiled schema has its own instance of its calculater (instance, 9-11 and 24-26), which lives as long as the task;
    rows are computed one after the other, the arguments of a call from left to right, before the call; ["#if", c, a, b] computes c and then a or b only.
    Simplifications: ROW_INDEX has no arguments (the code computes and ignores them), ROW_LAST one (with several the code keeps a tuple); one batch; no assignments (Assign_Model). *)
From Verif Require Import Base Assign_Syntax Rowfun_Syntax.
Section Model.
Variable V : Type.
Variable L : values V.
Variable number : nat -> V.
Variable null_test : bool -> V.                      (* what is_null of the package returns *)
(** Compiled expressions; the calls carry the state of their calculater. *)
Inductive valuer :=
| QConst (v : V) | QCol (name : text)
| QIndex (row_index : nat)                           (* row_calculater.py:13-16 *)
| QLast (row_last : V) (a : valuer)                  (* row_calculater.py:28-31 *)
| QCall (f : text) (args : list valuer) | QIsNull (a : valuer) | QIf (c a b : valuer).
Fixpoint compile (e : rexpr V) : valuer :=
  match e with
  | RConst v => QConst v
  | RCol n => QCol n
  | RIndex => QIndex 0
  | RLast e => QLast (v_null L) (compile e)
  | RCall f l => QCall f (map compile l)
  | RIf c a b => QIf (compile c) (compile a) (compile b)
  | RIfNull a b => QIf (QIsNull (compile a)) (compile b) (compile a)      (* 1650-1669: the first operand stands there twice *)
  end.
Fixpoint ev (r : row V) (q : valuer) : V * valuer :=
  match q with
  | QConst v => (v, q)
  | QCol n => (r n, q)
  | QIndex k => (number (S k), QIndex (S k))                              (* 18-20 *)
  | QLast last a => let (v, a') := ev r a in (last, QLast v a')           (* 33-35 *)
  | QCall f l => let vs := map (ev r) l in (v_fn L f (map fst vs), QCall f (map snd vs))
  | QIsNull a => let (v, a') := ev r a in (null_test (v_isnull L v), QIsNull a')
  | QIf c a b =>
    let (v, c') := ev r c in
    if v_true L v then let (x, a') := ev r a in (x, QIf c' a' b) else let (x, b') := ev r b in (x, QIf c' a b')
  end.
Fixpoint rows_of (items : list valuer) (rows : list (row V)) : list (list V) :=
  match rows with [] => [] | r :: rows => let vs := map (ev r) items in map fst vs :: rows_of (map snd vs) rows end.
(** SELECT items FROM rows *)
Definition select (items : list (rexpr V)) (rows : list (row V)) : list (list V) := rows_of (map compile items) rows.
End Model.

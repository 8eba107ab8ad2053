(** Select lists with assignments to variables: their syntax. *)
From Verif Require Import Base.

Section Syntax.
Variable V : Type.
(** [SCall] stands for functions and for the operators that compute all their operands; [SCase] has an ELSE. *)
Inductive sexpr :=
| SConst (v : V)
| SCol (name : text)
| SVar (x : text)                                    (* @x *)
| SAssign (x : text) (e : sexpr)                     (* @x := e *)
| SCall (f : text) (args : list sexpr)
| SIf (c a b : sexpr)                                (* IF(c, a, b) *)
| SIfNull (a b : sexpr)                              (* IFNULL(a, b) *)
| SCoalesce (a : sexpr) (l : list sexpr)             (* COALESCE(a, l...) *)
| SCase (this : option sexpr) (ifs : list (sexpr * sexpr)) (els : sexpr).
Definition row := text -> V.

(** What the functions compute, and which values count as true, as NULL, as equal. *)
Record values := Values { v_fn : text -> list V -> V; v_true : V -> bool; v_isnull : V -> bool; v_null : V; v_same : V -> V -> bool }.
End Syntax.
Arguments SConst {V}. Arguments SCol {V}. Arguments SVar {V}. Arguments SAssign {V}. Arguments SCall {V}. Arguments SIf {V}. Arguments SIfNull {V}.
Arguments SCoalesce {V}. Arguments SCase {V}. Arguments v_fn {V}. Arguments v_true {V}. Arguments v_isnull {V}. Arguments v_null {V}. Arguments v_same {V}.

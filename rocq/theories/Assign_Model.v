(** Model of assignments to variables in a select list: compiler.py:1531-1812 compile_calculate (Parameter 1757-1765, If 1641-1649, IfNull and Coalesce
    1650-1669, Case 1670-1696, Func 1697-1713, constants 1751-1752), 2733-2743 parse_const of a variable, 2878-2885 is_const, 1998-2001 compile_const, and
    calculaters/env_variable_calculater.py:22-40.

    Trusted reading of the package: for each row, in order, the columns of the schema are computed in the order in which they were added;
    the arguments of a call are computed from left to right; ["#if", c, a, b] computes c and then a or b only; a dict with "#case" computes
    its "#case" and then the entry found only.
    Simplifications: the names of the select items are different from each other; no joins, aggregates and windows; AND, OR and
    simple CASE's ELSE-less forms are in Expr_Model; the name of a variable is not among the renamed words (mapping). *)
From Verif Require Import Base Agg_Model Env_Model Assign_Syntax.

Set Implicit Arguments.
Section Model.
Variable V : Type.
Variable L : values V.
Notation heap := (Env_Model.heap V).

Inductive valuer :=
| AConst (v : V)                                     (* ["#const", v] *)
| ACol (name : text)                                 (* "$.name" *)
| AGet (x : text)                                    (* ["@current_env_variable::get_value", ["#const", "@x"]] *)
| ASet (x : text) (a : valuer)                       (* ["@current_env_variable::set_value", ["#const", "@x"], a] *)
| ACall (f : text) (args : list valuer)              (* ["@f", ...] *)
| AIsNull (a : valuer)                               (* ["@is_null", a] *)
| AIf (c a b : valuer)                               (* ["#if", c, a, b] *)
| ADict (o : valuer) (d : list (V * valuer)) (e : valuer).   (* {"#case": o, ..., "#end": e} *)

(** env_variable_calculater.py:22-31: NULL for a variable that is not set. [s] is the scope of the current executor. *)
Definition var_get (h : heap) (s : nat) (x : text) : V := Env_Model.get V h s (64%N :: x) (v_null L).
(** env_variable_calculater.py:33-38 *)
Definition var_set (h : heap) (s : nat) (x : text) (v : V) : heap := Env_Model.set_var V h s (64%N :: x) v.

(** compiler.py:2878-2885: a variable counts as a constant. *)
Definition is_const (e : sexpr V) : bool := match e with SConst _ | SVar _ => true | _ => false end.
(** compiler.py:2706-2745 parse_const, its value: a variable has the value it has when the statement is compiled, [h]. *)
Definition const_value (h : heap) (s : nat) (e : sexpr V) : V :=
  match e with SConst v => v | SVar x => var_get h s x | _ => v_null L end.
(** cases[key] = column, compiler.py:1676-1680: a dict. *)
Fixpoint dict_put (d : list (V * valuer)) (k : V) (a : valuer) : list (V * valuer) :=
  match d with [] => [(k, a)] | (k', a') :: r => if v_same L k' k then (k', a) :: r else (k', a') :: dict_put r k a end.

Fixpoint coalesce (l : list valuer) : valuer :=
  match l with [] => AConst (v_null L) | [c] => c | c :: r => AIf (AIsNull c) (coalesce r) c end.
Fixpoint build_if (value : option valuer) (ifs : list (valuer * valuer)) (els : valuer) : valuer :=
  match ifs with
  | [] => els
  | (w, a) :: r => AIf (match value with None => w | Some v => ACall (t "eq") [v; w] end) a (build_if value r els)
  end.

Section Compile.
Variables (h : heap) (s : nat).
Fixpoint compile (e : sexpr V) : valuer :=
  match e with
  | SConst v => AConst v
  | SCol n => ACol n
  | SVar x => AGet x
  | SAssign x a => ASet x (compile a)
  | SCall f l => ACall f (map compile l)
  | SIf c a b => AIf (compile c) (compile a) (compile b)
  | SIfNull a b => AIf (AIsNull (compile a)) (compile b) (compile a)
  | SCoalesce a l => AIf (AIsNull (compile a)) (coalesce (map compile l)) (compile a)
  | SCase this ifs els =>
    let branches := map (fun wt => (compile (fst wt), compile (snd wt))) ifs in
    match this with
    | None => build_if None branches (compile els)
    | Some v =>
      if forallb (fun wt => is_const (fst wt)) ifs
      then ADict (compile v) (fold_left (fun d wt => dict_put d (const_value h s (fst wt)) (compile (snd wt))) ifs []) (compile els)
      else build_if (Some (compile v)) branches (compile els)
    end
  end.
End Compile.

Section Eval.
Variables (s : nat) (r : row V).
Variable null_test : bool -> V.                      (* what is_null of the package returns *)
Fixpoint ev (q : valuer) (h : heap) {struct q} : V * heap :=
  match q with
  | AConst v => (v, h)
  | ACol n => (r n, h)
  | AGet x => (var_get h s x, h)
  | ASet x a => let (v, h1) := ev a h in (v, var_set h1 s x v)
  | ACall f args =>
    let (vs, h1) := (fix all (l : list valuer) (h : heap) : list V * heap :=
      match l with [] => ([], h) | a :: l => let (v, h1) := ev a h in let (vs, h2) := all l h1 in (v :: vs, h2) end) args h in
    (v_fn L f vs, h1)
  | AIsNull a => let (v, h1) := ev a h in (null_test (v_isnull L v), h1)
  | AIf c a b => let (v, h1) := ev c h in if v_true L v then ev a h1 else ev b h1
  | ADict o d e =>
    let (v, h1) := ev o h in
    (fix pick (d : list (V * valuer)) : V * heap :=
      match d with [] => ev e h1 | (k, a) :: d => if v_same L k v then ev a h1 else pick d end) d
  end.
End Eval.

Section Query.
Variables (s : nat) (null_test : bool -> V).
Fixpoint columns (items : list valuer) (r : row V) (h : heap) : list V * heap :=
  match items with [] => ([], h) | a :: l => let (v, h1) := ev s r null_test a h in let (vs, h2) := columns l r h1 in (v :: vs, h2) end.
Fixpoint rows_of (items : list valuer) (rows : list (row V)) (h : heap) : list (list V) * heap :=
  match rows with [] => ([], h) | r :: rows => let (o, h1) := columns items r h in let (os, h2) := rows_of items rows h1 in (o :: os, h2) end.
(** SELECT items FROM rows, compiled while the variables are [h0] and run when they are [h]. *)
Definition select (h0 : heap) (items : list (sexpr V)) (rows : list (row V)) (h : heap) : list (list V) * heap :=
  rows_of (map (compile h0 s) items) rows h.
End Query.
End Model.
Arguments AConst {V}. Arguments ACol {V}. Arguments AGet {V}. Arguments ASet {V}. Arguments ACall {V}. Arguments AIsNull {V}. Arguments AIf {V}. Arguments ADict {V}.

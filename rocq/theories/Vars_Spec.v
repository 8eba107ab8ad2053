(** Scripts that set and read variables: syntax, and their meaning as a sequence of statements.  Independent of the code. *)
From Verif Require Import Base.
Set Implicit Arguments.

Section Syntax.
Variable V : Type.      (* values *)
(** An expression of a query, of a SET or of SELECT ... INTO, as a function of the variables it reads. *)
Inductive expr := EConst (v : V) | EVar (x : text) | EOp (f : V -> V -> V) (a b : expr).
(** SET x = literal; SET GLOBAL x = literal; SET x = expression (also SELECT expression INTO x); a query; EXECUTE of a file with these statements.
    Declare is not a statement of the language: it gives x the value NULL unless the innermost scope has it (used to describe what the code does). *)
Inductive stmt := SetLit (x : text) (v : V) | SetGlobal (x : text) (v : V) | SetExpr (x : text) (e : expr) | Query (e : expr)
  | Execute (f : list stmt) | Declare (x : text).

(** Scopes, the innermost first, the global one last; a variable has the value of the innermost scope that has it, NULL if none does. *)
Definition scope := list (text * V).
Definition scopes := list scope.
Variable null : V.
Fixpoint lookup (x : text) (s : scopes) : V :=
  match s with [] => null | l :: r => match assoc x l with Some v => v | None => lookup x r end end.
Fixpoint eval (s : scopes) (e : expr) : V :=
  match e with EConst v => v | EVar x => lookup x s | EOp f a b => f (eval s a) (eval s b) end.

Definition put (x : text) (v : V) (l : scope) : scope := (x, v) :: l.
Definition put_local (x : text) (v : V) (s : scopes) : scopes := match s with [] => [] | l :: r => put x v l :: r end.
Fixpoint put_global (x : text) (v : V) (s : scopes) : scopes :=
  match s with [] => [] | [g] => [put x v g] | l :: r => l :: put_global x v r end.
Definition put_new (x : text) (s : scopes) : scopes :=
  match s with [] => [] | l :: r => match assoc x l with Some _ => s | None => put x null l :: r end end.

(** One statement after the other; a query shows its value, an executed file has a scope of its own, dropped at its end. *)
Fixpoint one (a : stmt) (s : scopes) : scopes * list V :=
  match a with
  | SetLit x v => (put_local x v s, [])
  | SetGlobal x v => (put_global x v s, [])
  | SetExpr x e => (put_local x (eval s e) s, [])
  | Query e => (s, [eval s e])
  | Declare x => (put_new x s, [])
  | Execute f =>
    let (s', o) := (fix all (f : list stmt) (s : scopes) : scopes * list V :=
      match f with [] => (s, []) | a :: r => let (s1, o1) := one a s in let (s2, o2) := all r s1 in (s2, o1 ++ o2) end) f ([] :: s) in
    (tl s', o)
  end.
Fixpoint sequence (f : list stmt) (s : scopes) : scopes * list V :=
  match f with [] => (s, []) | a :: r => let (s1, o1) := one a s in let (s2, o2) := sequence r s1 in (s2, o1 ++ o2) end.

(** ** Which statements a script moves *)
(** What a statement does when it is read: SETs of literals, and the declaration of a variable set from an expression; of an executed file only
    what concerns the global scope. *)
Fixpoint globals (a : stmt) : list stmt :=
  match a with
  | SetGlobal _ _ => [a]
  | Execute f => flat_map globals f
  | _ => []
  end.
Definition locals (a : stmt) : list stmt :=
  match a with SetLit _ _ | Declare _ => [a] | SetExpr x _ => [Declare x] | _ => [] end.
Definition early (a : stmt) : list stmt := locals a ++ globals a.
(** What is left to do when it is run. *)
Fixpoint late (a : stmt) : list stmt :=
  match a with
  | SetExpr _ _ | Query _ => [a]
  | Execute f => [Execute (flat_map locals f ++ flat_map late f)]
  | _ => []
  end.
Definition hoist (f : list stmt) : list stmt := flat_map early f ++ flat_map late f.

(** ** Scripts for which this makes no difference *)
Fixpoint reads (e : expr) : list text :=
  match e with EConst _ => [] | EVar x => [x] | EOp _ a b => reads a ++ reads b end.
Fixpoint names (a : stmt) : list text :=
  match a with
  | SetLit x _ | SetGlobal x _ | Declare x => [x]
  | SetExpr x e => x :: reads e
  | Query e => reads e
  | Execute f => flat_map names f
  end.
(** The variables a statement gives a value in the innermost scope. *)
Definition writes (a : stmt) : list text :=
  match a with SetLit x _ | SetExpr x _ | Declare x => [x] | _ => [] end.
Definition target (a : stmt) : text := match a with SetLit x _ | SetGlobal x _ | Declare x => x | _ => [] end.

(** [ordered B f]: in the script [f], started with the variables [B] set in the innermost scope, no statement uses a variable that a later
    statement sets from a literal, and a variable set from an expression is not used before, unless it is already set. *)
Inductive fine (B : list text) : stmt -> Prop :=
| f_lit : forall x v, fine B (SetLit x v)
| f_global : forall x v, fine B (SetGlobal x v)
| f_expr : forall x e, In x B \/ ~ In x (reads e) -> fine B (SetExpr x e)
| f_query : forall e, fine B (Query e)
| f_declare : forall x, fine B (Declare x)
| f_execute : forall f, ordered [] f -> fine B (Execute f)
with ordered (B : list text) : list stmt -> Prop :=
| o_nil : ordered B []
| o_cons : forall a r, fine B a ->
    (late a = [] \/ forall b, In b (flat_map early r) -> ~ In (target b) (names a) \/ (exists x, b = Declare x /\ In x (writes a ++ B))) ->
    ordered (writes a ++ B) r -> ordered B (a :: r).
End Syntax.
Arguments EVar {V}. Arguments Declare {V}.

(** The variables set with GLOBAL by a statement, in executed files too. *)
Fixpoint global_names (V : Type) (a : stmt V) : list text :=
  match a with SetGlobal x _ => [x] | Execute f => flat_map (@global_names V) f | _ => [] end.

(** Statements submitted one at a time: a variable set from an expression that reads it is set before in the same scope, and executed files are
    [ordered]. *)
Fixpoint each_fine (V : Type) (B : list text) (f : list (stmt V)) : Prop :=
  match f with [] => True | a :: r => fine B a /\ each_fine (writes a ++ B) r end.

(** Equal results: the same values shown, the same variables with the same values in every scope. *)
Definition same_result (V : Type) (p q : scopes V * list V) : Prop :=
  snd p = snd q /\ Forall2 (fun a b => forall x, assoc x a = assoc x b) (fst p) (fst q).

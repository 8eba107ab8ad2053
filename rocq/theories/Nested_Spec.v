(** A subquery in an expression is a call: it sees the variables of the query around it and the conditions as variables of its own; what it assigns
    is its own; its result is the rows it gives. *)
From Verif Require Import Base Nested_Syntax.
Set Implicit Arguments.

Section Spec.
Variables V R : Type.
Definition env := text -> V.
Definition assign (e : env) (x : text) (v : V) : env := fun y => if text_eqb y x then v else e y.
(** All conditions with an operator and a name. *)
Definition usable (fs : filters V) : list (text * V) :=
  flat_map (fun ef => if text_eqb (fst ef) [] then [] else
    flat_map (fun kv => match fst kv with Some k => if text_eqb k [] then [] else [(k, snd kv)] | None => [] end) (snd ef)) fs.
(** The last one of a name counts. *)
Definition given (e : env) (fs : filters V) : env :=
  fun y => match find (fun kv => text_eqb (fst kv) y) (rev (usable fs)) with Some kv => snd kv | None => e y end.

(** The rows, whether it succeeded, and its variables at the end. *)
Fixpoint meaning (p : prog V R) (e : env) : list R * bool * env :=
  match p with
  | Done => ([], true, e)
  | Fail => ([], false, e)
  | Emit r p => let '(rs, ok, e') := meaning p e in (r :: rs, ok, e')
  | Get x k => meaning (k (e x)) e
  | Put x v p => meaning p (assign e x v)
  | Sub fs body k =>
    let '(rs, ok, _) := meaning body (given e fs) in
    if ok then meaning (k rs) e else ([], false, e)
  end.
Definition named (x : text) : Prop := forall y, x <> 64%N :: y.
(** The names it reads and assigns do not start with an at sign. *)
Fixpoint named_all (p : prog V R) : Prop :=
  match p with
  | Done | Fail => True
  | Emit _ p => named_all p
  | Get x k => named x /\ forall v, named_all (k v)
  | Put x v p => named x /\ named_all p
  | Sub _ body k => named_all body /\ forall rs, named_all (k rs)
  end.
End Spec.

(** Statements one after the other, each with its rows and whether it succeeded. *)
Fixpoint meanings {V R} (l : list (prog V R)) (e : env V) : list (list R * bool) * env V :=
  match l with
  | [] => ([], e)
  | p :: l => let '(rs, ok, e1) := meaning p e in let (os, e2) := meanings l e1 in ((rs, ok) :: os, e2)
  end.

(** The SQL expression trees the parser (external package sqlglot) hands to the compiler, restricted to
    the node kinds handled by the modelled part of compiler.py:1531-1812. *)
From Verif Require Import Base PyVal.
Local Set Implicit Arguments.

Inductive expr :=
| EConst (v : val)                                   (* Literal, Boolean, Null *)
| ECol (name : text)                                 (* Column of the current row *)
| EParen (e : expr)
| ENeg (e : expr)
| ENot (e : expr)
| EAnd (a b : expr)
| EOr (a b : expr)
| EIs (a b : expr)
| EBin (key : text) (a b : expr)                     (* EQ, NEQ, GT, ..., Like, Add, ...: node class in lower case *)
| EIn (a : expr) (l : list expr)
| EBetween (e low high : expr)
| EIf (c t : expr) (f : option expr)
| EIfNull (a b : expr)
| ECoalesce (a : expr) (l : list expr)
| ECase (this : option expr) (ifs : list (expr * expr)) (els : option expr)
| EFun (key : text) (args : list expr).              (* Func: any other named function *)

(** Induction over trees with lists of subtrees. *)
Definition opt_all {A} (P : A -> Prop) (o : option A) : Prop := match o with Some x => P x | None => True end.
Section Ind.
Variable P : expr -> Prop.
Hypothesis Hconst : forall v, P (EConst v).
Hypothesis Hcol : forall n, P (ECol n).
Hypothesis Hparen : forall e, P e -> P (EParen e).
Hypothesis Hneg : forall e, P e -> P (ENeg e).
Hypothesis Hnot : forall e, P e -> P (ENot e).
Hypothesis Hand : forall a b, P a -> P b -> P (EAnd a b).
Hypothesis Hor : forall a b, P a -> P b -> P (EOr a b).
Hypothesis His : forall a b, P a -> P b -> P (EIs a b).
Hypothesis Hbin : forall k a b, P a -> P b -> P (EBin k a b).
Hypothesis Hin : forall a l, P a -> Forall P l -> P (EIn a l).
Hypothesis Hbetween : forall e lo hi, P e -> P lo -> P hi -> P (EBetween e lo hi).
Hypothesis Hif : forall c a f, P c -> P a -> opt_all P f -> P (EIf c a f).
Hypothesis Hifnull : forall a b, P a -> P b -> P (EIfNull a b).
Hypothesis Hcoalesce : forall a l, P a -> Forall P l -> P (ECoalesce a l).
Hypothesis Hcase : forall o ifs els, opt_all P o -> Forall (fun wt => P (fst wt) /\ P (snd wt)) ifs ->
  opt_all P els -> P (ECase o ifs els).
Hypothesis Hfun : forall k l, Forall P l -> P (EFun k l).

Fixpoint expr_induction (e : expr) : P e :=
  let all := fix go (l : list expr) : Forall P l :=
    match l with [] => Forall_nil _ | x :: r => Forall_cons _ (expr_induction x) (go r) end in
  let opt := fun o : option expr =>
    match o return opt_all P o with Some x => expr_induction x | None => I end in
  match e with
  | EConst v => Hconst v
  | ECol n => Hcol n
  | EParen a => Hparen (expr_induction a)
  | ENeg a => Hneg (expr_induction a)
  | ENot a => Hnot (expr_induction a)
  | EAnd a b => Hand (expr_induction a) (expr_induction b)
  | EOr a b => Hor (expr_induction a) (expr_induction b)
  | EIs a b => His (expr_induction a) (expr_induction b)
  | EBin k a b => Hbin k (expr_induction a) (expr_induction b)
  | EIn a l => Hin (expr_induction a) (all l)
  | EBetween a b c => Hbetween (expr_induction a) (expr_induction b) (expr_induction c)
  | EIf a b o => @Hif a b o (expr_induction a) (expr_induction b) (opt o)
  | EIfNull a b => Hifnull (expr_induction a) (expr_induction b)
  | ECoalesce a l => Hcoalesce (expr_induction a) (all l)
  | ECase o ifs els =>
      @Hcase o ifs els (opt o)
        ((fix go (l : list (expr * expr)) : Forall (fun wt => P (fst wt) /\ P (snd wt)) l :=
            match l with
            | [] => Forall_nil _
            | wt :: r => Forall_cons wt (conj (expr_induction (fst wt)) (expr_induction (snd wt))) (go r)
            end) ifs) (opt els)
  | EFun k l => Hfun k (all l)
  end.
End Ind.

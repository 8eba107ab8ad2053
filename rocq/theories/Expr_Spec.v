(** SQL semantics of expressions, written independently of the compiler: three-valued logic. *)
From Coq Require Import SpecFloat.
From Verif Require Import Base PyVal Expr_Syntax.
Open Scope Z_scope.

(** Truth of a value used as a condition: [None] is UNKNOWN.  [text_true] is the database's reading of a
    text as a condition. *)
Section Spec.
Variable text_true : text -> bool.
Variable fn : text -> list val -> val.               (* the SQL functions and operators, by name *)

Definition truth (v : val) : option bool :=
  match v with
  | VNone => None
  | VBool b => Some b
  | VInt z => Some (negb (z =? 0))
  | VFloat (S754_zero _) => Some false
  | VFloat _ => Some true
  | VStr s => Some (text_true s)
  | _ => Some true
  end.
Definition of3 (t : option bool) : val :=
  match t with None => VNone | Some true => VInt 1 | Some false => VInt 0 end.

Definition and3 (a b : option bool) : option bool :=
  match a, b with
  | Some false, _ | _, Some false => Some false
  | Some true, Some true => Some true
  | _, _ => None
  end.
Definition or3 (a b : option bool) : option bool :=
  match a, b with
  | Some true, _ | _, Some true => Some true
  | Some false, Some false => Some false
  | _, _ => None
  end.
Definition not3 (a : option bool) : option bool := option_map negb a.

(** First value that is not NULL. *)
Fixpoint first_value (l : list val) : val :=
  match l with [] => VNone | VNone :: r => first_value r | v :: _ => v end.
(** Result of the first branch whose condition is TRUE. *)
Fixpoint first_true (l : list (option bool * val)) (els : val) : val :=
  match l with
  | [] => els
  | (Some true, v) :: _ => v
  | _ :: r => first_true r els
  end.

Fixpoint sem (row : text -> val) (e : expr) : val :=
  match e with
  | EConst v => v
  | ECol n => row n
  | EParen a => sem row a
  | ENeg a => fn (t "neg") [sem row a]
  | ENot a => of3 (not3 (truth (sem row a)))
  | EAnd a b => of3 (and3 (truth (sem row a)) (truth (sem row b)))
  | EOr a b => of3 (or3 (truth (sem row a)) (truth (sem row b)))
  | EIs a b => fn (t "is") [sem row a; sem row b]
  | EBin k a b => fn k [sem row a; sem row b]
  | EIn a l =>
    let x := sem row a in
    of3 (fold_right or3 (Some false) (map (fun y => truth (fn (t "eq") [x; sem row y])) l))
  | EBetween a lo hi =>
    let x := sem row a in
    of3 (and3 (truth (fn (t "gte") [x; sem row lo])) (truth (fn (t "lte") [x; sem row hi])))
  | EIf c a f =>
    match truth (sem row c) with
    | Some true => sem row a
    | _ => match f with Some b => sem row b | None => VNone end
    end
  | EIfNull a b => first_value [sem row a; sem row b]
  | ECoalesce a l => first_value (sem row a :: map (sem row) l)
  | ECase this ifs els =>
    let cond w := match this with None => truth w | Some v => truth (fn (t "eq") [sem row v; w]) end in
    first_true (map (fun wt => (cond (sem row (fst wt)), sem row (snd wt))) ifs)
               (match els with Some b => sem row b | None => VNone end)
  | EFun k l => fn k (map (sem row) l)
  end.
End Spec.

(** ** Which expressions the theorems speak about (syntax only) *)

Definition comparison_op (k : text) : bool :=
  existsb (text_eqb k) [t "eq"; t "neq"; t "gt"; t "gte"; t "lt"; t "lte"].

(** Expressions whose value is 0, 1 or NULL. *)
Inductive boolean : expr -> Prop :=
| B_cmp k a b : comparison_op k = true -> boolean (EBin k a b)
| B_is a b : boolean (EIs a b)
| B_in a l : boolean (EIn a l)
| B_not a : boolean (ENot a)
| B_true : boolean (EConst (VInt 1))
| B_false : boolean (EConst (VInt 0))
| B_null : boolean (EConst VNone)
| B_paren a : boolean a -> boolean (EParen a)
| B_and a b : boolean b -> boolean (EAnd a b)
| B_or a b : boolean b -> boolean (EOr a b)
| B_if c a b : boolean a -> boolean b -> boolean (EIf c a (Some b))
| B_ifnull a b : boolean a -> boolean b -> boolean (EIfNull a b).

(** Expressions that are never NULL. *)
Inductive never_null : expr -> Prop :=
| N_const v : v <> VNone -> never_null (EConst v)
| N_is_null a : never_null (EIs a (EConst VNone))
| N_not_is_null a : never_null (ENot (EIs a (EConst VNone)))
| N_paren a : never_null a -> never_null (EParen a)
| N_ifnull a b : never_null b -> never_null (EIfNull a b).

(** [exact e]: the compiled value is the SQL value, whatever the row.
    [cond e]: the compiled value is true exactly when the SQL value is TRUE, whatever the row. *)
Inductive exact : expr -> Prop :=
| X_const v : exact (EConst v)
| X_col n : exact (ECol n)
| X_paren a : exact a -> exact (EParen a)
| X_neg a : exact a -> exact (ENeg a)
| X_not a : exact a -> boolean a -> exact (ENot a)
| X_and a b : exact a -> boolean a -> never_null a -> exact b -> boolean b -> exact (EAnd a b)
| X_or a b : exact a -> boolean a -> never_null a -> exact b -> boolean b -> exact (EOr a b)
| X_is a b : exact a -> exact b -> exact (EIs a b)
| X_bin k a b : exact a -> exact b -> exact (EBin k a b)
| X_in a l : exact a -> l <> [] -> Forall exact l -> exact (EIn a l)
| X_if c a b : cond c -> exact a -> exact b -> exact (EIf c a (Some b))
| X_ifnull a b : exact a -> exact b -> exact (EIfNull a b)
| X_coalesce a l : exact a -> Forall exact l -> exact (ECoalesce a l)
| X_case ifs els : Forall (fun wt => cond (fst wt) /\ exact (snd wt)) ifs -> exact els ->
    exact (ECase None ifs (Some els))
| X_case_of e ifs els : exact e -> Forall (fun wt => exact (fst wt) /\ exact (snd wt)) ifs -> exact els ->
    (exists wt, In wt ifs /\ forall v, fst wt <> EConst v /\ fst wt <> ENeg (EConst v)) ->
    exact (ECase (Some e) ifs (Some els))
| X_fun k l : Forall exact l -> exact (EFun k l)
with cond : expr -> Prop :=
| C_bool a : exact a -> boolean a -> cond a
| C_const v : (forall s, v <> VStr s) -> cond (EConst v)
| C_paren a : cond a -> cond (EParen a)
| C_and a b : cond a -> cond b -> cond (EAnd a b)
| C_or a b : cond a -> cond b -> cond (EOr a b)
| C_between a lo hi : exact a -> exact lo -> exact hi -> cond (EBetween a lo hi)
| C_if c a b : cond c -> cond a -> cond b -> cond (EIf c a (Some b)).

(** Conditions with NOT at any depth, all of whose elementary conditions are known (not NULL) on the row. *)
Inductive known (value : expr -> val) : expr -> Prop :=
| K_leaf a : exact a -> boolean a -> value a <> VNone -> known value a
| K_paren a : known value a -> known value (EParen a)
| K_not a : known value a -> known value (ENot a)
| K_and a b : known value a -> known value b -> known value (EAnd a b)
| K_or a b : known value a -> known value b -> known value (EOr a b)
| K_between a lo hi : exact a -> exact lo -> exact hi ->
    value a <> VNone -> value lo <> VNone -> value hi <> VNone ->
    value (EBin (t "gte") a lo) <> VNone -> value (EBin (t "lte") a hi) <> VNone -> known value (EBetween a lo hi).

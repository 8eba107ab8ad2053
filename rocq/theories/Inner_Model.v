(** Model of the search for aggregates in the items of the select list: compiler.py:454-514 (what kind of item it is), 2315-2331
    parse_aggregate, 2887-2895 is_calculate, 2897-2915 is_aggregate, and of the marks: 1213-1224 (the state of each aggregate is read
    where the aggregate stands) and 1532-1533.

    A node is known by the path to it (Python: id(expression)); [state_name] is "value_%d" % id(expression) under the column.
    Simplifications: subqueries, CAST and calls of other functions by name are not modelled; the read of a state is compiled like a column of that
    name (compile_calculate asks of its arguments only whether they are constants, never whether they are columns). *)
From Verif Require Import Base PyVal Expr_Syntax Expr_Model Group_Syntax Group_Model Inner_Syntax.
Open Scope nat_scope.

Definition path := list nat.
Fixpoint path_eqb (a b : path) : bool :=
  match a, b with [] , [] => true | x :: a', y :: b' => (x =? y) && path_eqb a' b' | _, _ => false end.

Section Lists.
Variables (A B : Type).
Variable f : nat -> A -> list B.
Fixpoint concati (i : nat) (l : list A) : list B := match l with [] => [] | x :: r => f i x ++ concati (S i) r end.
Variable g : nat -> A -> B.
Fixpoint mapi (i : nat) (l : list A) : list B := match l with [] => [] | x :: r => g i x :: mapi (S i) r end.
End Lists.
Arguments concati {A B}. Arguments mapi {A B}.

(** 2897-2915 is_aggregate *)
Definition is_aggregate (e : expr) : bool := match as_aggregate e with Some _ => true | None => false end.
(** 2315-2331 parse_aggregate: the aggregates with their paths, the node itself first, then those in its arguments.  A DISTINCT is no
    calculation (2887-2895), so that its argument is not searched; constants and columns neither. *)
Fixpoint parse_aggregate (p : path) (e : expr) : list (path * expr) :=
  (if is_aggregate e then [(p, e)] else []) ++
  match e with
  | EConst _ | ECol _ => []
  | EParen a | ENeg a | ENot a => parse_aggregate (0 :: p) a
  | EAnd a b | EOr a b | EIs a b | EBin _ a b | EIfNull a b => parse_aggregate (0 :: p) a ++ parse_aggregate (1 :: p) b
  | EBetween a b c => parse_aggregate (0 :: p) a ++ parse_aggregate (1 :: p) b ++ parse_aggregate (2 :: p) c
  | EIf a b c => parse_aggregate (0 :: p) a ++ parse_aggregate (1 :: p) b ++ match c with Some c => parse_aggregate (2 :: p) c | None => [] end
  | EIn a l | ECoalesce a l => parse_aggregate (0 :: p) a ++ concati (fun i x => parse_aggregate (S i :: p) x) 0 l
  | ECase o ifs els =>
      match o with Some x => parse_aggregate (0 :: p) x | None => [] end ++
      concati (fun i wt => parse_aggregate (S (S (2 * i)) :: p) (fst wt) ++ parse_aggregate (S (S (S (2 * i))) :: p) (snd wt)) 0 ifs ++
      match els with Some x => parse_aggregate (1 :: p) x | None => [] end
  | EFun k l => if match as_aggregate e with Some a => a_distinct a | None => false end then [] else concati (fun i x => parse_aggregate (i :: p) x) 0 l
  end.

Section Marks.
Variable state_name : path -> text.
Variable marked : path -> bool.
(** 1532-1533: a marked node is the read of its state, whatever it is. *)
Fixpoint mark (p : path) (e : expr) : expr :=
  if marked p then ECol (state_name p) else
  match e with
  | EConst v => EConst v
  | ECol n => ECol n
  | EParen a => EParen (mark (0 :: p) a)
  | ENeg a => ENeg (mark (0 :: p) a)
  | ENot a => ENot (mark (0 :: p) a)
  | EAnd a b => EAnd (mark (0 :: p) a) (mark (1 :: p) b)
  | EOr a b => EOr (mark (0 :: p) a) (mark (1 :: p) b)
  | EIs a b => EIs (mark (0 :: p) a) (mark (1 :: p) b)
  | EBin k a b => EBin k (mark (0 :: p) a) (mark (1 :: p) b)
  | EIn a l => EIn (mark (0 :: p) a) (mapi (fun i x => mark (S i :: p) x) 0 l)
  | EBetween a b c => EBetween (mark (0 :: p) a) (mark (1 :: p) b) (mark (2 :: p) c)
  | EIf a b c => EIf (mark (0 :: p) a) (mark (1 :: p) b) (match c with Some c => Some (mark (2 :: p) c) | None => None end)
  | EIfNull a b => EIfNull (mark (0 :: p) a) (mark (1 :: p) b)
  | ECoalesce a l => ECoalesce (mark (0 :: p) a) (mapi (fun i x => mark (S i :: p) x) 0 l)
  | ECase o ifs els =>
      ECase (match o with Some x => Some (mark (0 :: p) x) | None => None end)
            (mapi (fun i wt => (mark (S (S (2 * i)) :: p) (fst wt), mark (S (S (S (2 * i))) :: p) (snd wt))) 0 ifs)
            (match els with Some x => Some (mark (1 :: p) x) | None => None end)
  | EFun k l => EFun k (mapi (fun i x => mark (i :: p) x) 0 l)
  end.
End Marks.

Section Items.
Variable state_name : path -> text.
(** The aggregates found, by the names of their states (1213-1224). *)
Definition found (e : expr) : list (text * aggregate) :=
  flat_map (fun pe => match as_aggregate (snd pe) with Some a => [(state_name (fst pe), a)] | None => [] end) (parse_aggregate [] e).
(** 454-514 for an item with a name: a constant, a column, an aggregate, an expression around aggregates or another expression. *)
Definition select_item (e : expr) : item :=
  if is_const e then IConst (const_value e)
  else match e with
       | ECol n => ICol n
       | _ => match as_aggregate e with
              | Some a => IAgg a
              | None => match parse_aggregate [] e with
                        | [] => ICalc e
                        | l => IExpr (mark state_name (fun p => existsb (path_eqb p) (map fst l)) [] e) (found e)
                        end
              end
       end.
Definition query_of (w : written) : query := mkquery (map (fun ne => (fst ne, select_item (snd ne))) (w_items w)) (w_group w).
Definition compile_written (frepr : SpecFloat.spec_float -> text) ident ext (w : written) : res config := compile_query frepr ident ext (query_of w).
End Items.

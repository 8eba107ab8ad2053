(** Model of CAST of a column in WHERE: compiler.py:2854-2866 is_column with check_convert_type, 2637-2660 parse_column (the cast becomes a typing filter; the
    typing_name of a column without annotations is the name alone: 2684-2686), used by parse_condition (858-872) in the place of a column.
    convert_type(column) is treated like CAST(column AS type) there, and is not modelled beside it. *)
From Verif Require Import Base PyVal Utils_Model Calc_Model Expr_Syntax Expr_Model Where_Model Cast_Syntax.
Open Scope Z_scope.

(** compiler.py:2854-2866 is_column and 2637-2660 parse_column: a column, or CAST of a column; nested casts are not columns. *)
Definition as_column (e : expr) : option text := match e with ECol n => Some n | _ => cast_column e end.

Section Where.
Variable compile : expr -> valuer.
Variable primary : text -> bool.
Variable typing_name : text -> text.

(** compiler.py:848-893 parse_condition, as in Where_Model. *)
Definition parse_binary_cast (a b : expr) : option (text * pvalue) :=
  match as_column a with
  | Some n => if primary n then if has_column b then None else Some (n, PV (compile b)) else None
  | None =>
    match as_column b with
    | Some n => if primary n then if has_column a then None else Some (n, PV (compile a)) else None
    | None => None
    end
  end.
Definition parse_in_cast (a : expr) (l : list expr) : option (text * pvalue) :=
  match as_column a with
  | Some n => if primary n then Some (n, PL (map compile l)) else None
  | None => None
  end.
(** compiler.py:810-960, as in Where_Model. *)
Fixpoint where_cast (e : expr) (q : querys) : expr * option expr * querys :=
  let keep := (e, Some e, q) in
  let push n op v := (EConst (VInt 1), None, build_query q (typing_name n) op v) in
  match e with
  | EAnd a b =>
    let '(ma, ra, q) := where_cast a q in
    let '(mb, rb, q) := where_cast b q in
    (EAnd ma mb,
     match ra, rb with
     | None, None => None
     | None, Some x => Some x
     | Some x, None => Some x
     | Some _, Some _ => Some (EAnd ma mb)
     end, q)
  | EParen a => let '(ma, ra, q) := where_cast a q in (EParen ma, ra, q)
  | EBin k a b =>
    match push_op k with
    | Some op => match parse_binary_cast a b with Some (n, v) => push n op v | None => keep end
    | None => keep
    end
  | EIn a l => match parse_in_cast a l with Some (n, v) => push n (t "in") v | None => keep end
  | _ => keep
  end.
End Where.

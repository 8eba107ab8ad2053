(** Model of the WHERE compiler: compiler.py:810-960 compile_where_condition, 2780-2822
    parse_condition_typing_filter, 179-206 compile_delete, 517-522 (SELECT).

    Not modelled: conditions comparing with a subquery, CAST of a column as one side of a comparison (Cast_Where), and joins (columns of other tables occur, but
    only as columns that are not pushed). *)
From Coq Require Import SpecFloat.
From Verif Require Import Base PyVal Utils_Model Calc_Model Expr_Syntax Expr_Model.
Open Scope Z_scope.

(** The value of a pushed condition: a column, or ["@convert_array", ["#const" | "#make", [...]]]. *)
Inductive pvalue := PV (q : valuer) | PL (l : list valuer).

(** config["querys"][key]: a dict from operator to value, or a list of such dicts. *)
Definition ops := list (text * pvalue).
Inductive colq := QOne (d : ops) | QMany (l : list ops).
Definition querys := list (text * colq).

Fixpoint qset (q : querys) (k : text) (c : colq) : querys :=
  match q with
  | [] => [(k, c)]
  | (k', c') :: r => if text_eqb k' k then (k', c) :: r else (k', c') :: qset r k c
  end.
Definition qdel (q : querys) (k : text) : querys := filter (fun e => negb (text_eqb (fst e) k)) q.
Definition has_op (d : ops) (op : text) : bool := existsb (fun e => text_eqb (fst e) op) d.

(** compiler.py:887-888: the loop over the list of dicts. *)
Fixpoint put_first (l : list ops) (op : text) (v : pvalue) : list ops :=
  match l with
  | [] => [[(op, v)]]
  | d :: r => if has_op d op then d :: put_first r op v else (d ++ [(op, v)]) :: r
  end.

(** compiler.py:874-891 build_query_condition. *)
Definition build_query (q : querys) (key op : text) (v : pvalue) : querys :=
  match assoc key q with
  | None => qset q key (QOne [(op, v)])
  | Some (QOne d) => if has_op d op then qset q key (QMany (put_first [d] op v))
                     else qset q key (QOne (d ++ [(op, v)]))
  | Some (QMany l) => qset q key (QMany (put_first l op v))
  end.

(** compiler.py:825-846 has_column_expression. *)
Fixpoint has_column (e : expr) : bool :=
  match e with
  | EConst _ => false
  | ECol _ => true
  | EParen a | ENeg a | ENot a => has_column a
  | EAnd a b | EOr a b | EIs a b | EBin _ a b | EIfNull a b => has_column a || has_column b
  | EIn a l | ECoalesce a l => has_column a || existsb has_column l
  | EBetween a b c => has_column a || has_column b || has_column c
  | EIf a b f => has_column a || has_column b || match f with Some c => has_column c | None => false end
  | ECase o ifs els =>
    match o with Some c => has_column c | None => false end ||
    existsb (fun wt => has_column (fst wt) || has_column (snd wt)) ifs ||
    match els with Some c => has_column c | None => false end
  | EFun _ l => existsb has_column l
  end.

(** compiler.py:893-948: the operator text pushed for each comparison node. *)
Definition push_op (key : text) : option text :=
  if text_eqb key (t "eq") then Some (t "==")
  else if text_eqb key (t "neq") then Some (t "!=")
  else if text_eqb key (t "gt") then Some (t ">")
  else if text_eqb key (t "gte") then Some (t ">=")
  else if text_eqb key (t "lt") then Some (t "<")
  else if text_eqb key (t "lte") then Some (t "<=")
  else None.

Section Where.
Variable compile : expr -> valuer.         (* Expr_Model.compile *)
Variable primary : text -> bool.           (* column without table name, or of the primary table *)
Variable typing_name : text -> text.       (* parse_column(...)["typing_name"], compiler.py:2637-2704 *)

(** compiler.py:848-872 parse_condition of a binary comparison: the column and the value. *)
Definition parse_binary (a b : expr) : option (text * pvalue) :=
  match a with
  | ECol n => if primary n then if has_column b then None else Some (n, PV (compile b)) else None
  | _ =>
    match b with
    | ECol n => if primary n then if has_column a then None else Some (n, PV (compile a)) else None
    | _ => None
    end
  end.
(** ... and of IN (list): the items are not looked at. *)
Definition parse_in (a : expr) (l : list expr) : option (text * pvalue) :=
  match a with
  | ECol n => if primary n then Some (n, PL (map compile l)) else None
  | _ => None
  end.

(** compiler.py:810-960.  Returns the tree with the pushed conditions marked by ["#const", 1]
    (syncany_valuer), the residual condition and the pushed conditions.  The residual is a subtree of the
    same objects, so it carries the marks. *)
Fixpoint where_cond (e : expr) (q : querys) : expr * option expr * querys :=
  let keep := (e, Some e, q) in
  let push n op v := (EConst (VInt 1), None, build_query q (typing_name n) op v) in
  match e with
  | EAnd a b =>
    let '(ma, ra, q) := where_cond a q in
    let '(mb, rb, q) := where_cond b q in
    (EAnd ma mb,
     match ra, rb with
     | None, None => None
     | None, Some x => Some x
     | Some x, None => Some x
     | Some _, Some _ => Some (EAnd ma mb)
     end, q)
  | EParen a => let '(ma, ra, q) := where_cond a q in (EParen ma, ra, q)
  | EBin k a b =>
    match push_op k with
    | Some op => match parse_binary a b with Some (n, v) => push n op v | None => keep end
    | None => keep
    end
  | EIn a l => match parse_in a l with Some (n, v) => push n (t "in") v | None => keep end
  | _ => keep
  end.

(** type(v).__name__ of an int, float or bool constant. *)
Definition type_name (v : val) : option text :=
  match v with
  | VInt _ => Some (t "int")
  | VFloat _ => Some (t "float")
  | VBool _ => Some (t "bool")
  | _ => None
  end.
Definition value_type (op : text) (v : pvalue) : option text :=
  match v with
  | PV (QConst c) => if text_eqb op (t "in") then None else type_name c
  | _ => None
  end.
(** compiler.py:2784-2818: the common type of the constants; [None]: False. *)
Fixpoint common_type (l : list (text * pvalue)) (cur : option text) : option (option text) :=
  match l with
  | [] => Some cur
  | (op, v) :: r =>
    match value_type op v with
    | None => common_type r cur
    | Some ty => match cur with
                 | Some c => if text_eqb c ty then common_type r cur else None
                 | None => common_type r (Some ty)
                 end
    end
  end.
Definition all_ops (c : colq) : list (text * pvalue) := match c with QOne d => d | QMany l => concat l end.

Definition has_bar (k : text) : bool := existsb (N.eqb 124) k.

(** compiler.py:2780-2822 parse_condition_typing_filter, for one key and for all keys.  Values that are
    subqueries or "@now" are not modelled (the compiler emits "@mysql::now"). *)
Definition retype_key (q : querys) (k : text) : querys :=
  if has_bar k then q
  else match assoc k q with
       | None => q
       | Some c => match common_type (all_ops c) None with
                   | Some (Some ty) => qdel (qset q (k ++ t "|" ++ ty) c) k
                   | _ => q
                   end
       end.
Definition retype (q : querys) : querys := fold_left retype_key (map fst q) q.

(** compiler.py:517-522: SELECT ... WHERE: the pushed conditions and the residual predicate.
    Simplification: a residual that is a bare column named like a select alias is not modelled
    (compile_where_condition_column:964-968). *)
Definition compile_where (e : expr) : querys * option valuer :=
  let '(_, r, q) := where_cond e [] in (retype q, option_map compile r).

(** compiler.py:198-206: DELETE: rejected when a residual remains. *)
Definition compile_delete (w : option expr) : res querys :=
  match w with
  | None => Ok []
  | Some e => let '(_, r, q) := where_cond e [] in
              match r with Some _ => Err CompileError | None => Ok (retype q) end
  end.
End Where.

(** ** The data source (trusted reading of the external loaders) *)
Section Source.
Variable frepr : spec_float -> text.
Variable ident : val -> val -> bool.
Variable ext : text -> option (list val -> val).
Variable lib : text -> list val -> val.

(** The field a key names: the part before '|' (what follows is the type of the values). *)
Definition base_name (k : text) : text := fst (break (N.eqb 124) k).

(** A pushed value is evaluated once, without a row: columns read as NULL. *)
Definition no_row (_ : text) : val := VNone.
Definition sql_op (op : text) : text :=
  if text_eqb op (t "==") then t "eq" else if text_eqb op (t "!=") then t "neq"
  else if text_eqb op (t ">") then t "gt" else if text_eqb op (t ">=") then t "gte"
  else if text_eqb op (t "<") then t "lt" else t "lte".
(** The source keeps a row when the comparison of the field with the value is true. *)
Definition op_holds (x : val) (ov : text * pvalue) : bool :=
  match snd ov with
  | PV q => truthy (call_mysql frepr ident ext (sql_op (fst ov)) [x; ev frepr ident ext lib no_row q])
  | PL l => truthy (guarded (mysql_in frepr x (map (ev frepr ident ext lib no_row) l)))
  end.
(** All conditions of all columns must hold. *)
Definition source_keeps (field : text -> val) (q : querys) : bool :=
  forallb (fun kc => forallb (op_holds (field (base_name (fst kc)))) (all_ops (snd kc))) q.

(** SELECT: rows kept by the source and by the residual predicate. *)
Definition select_keeps (field row : text -> val) (w : querys * option valuer) : bool :=
  source_keeps field (fst w) &&
  match snd w with None => true | Some q => truthy (ev frepr ident ext lib row q) end.
End Source.

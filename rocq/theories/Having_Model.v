(** Model of the HAVING compiler: compiler.py:1813-1931 compile_having_condition, 526-530 (SELECT).

    Trusted reading of the external package: config["intercept"] is evaluated on each result row, which is kept when the
    value is true in the sense of Python's [if]; ["@re::match", p, v] calls re.match(p, v) ([rematch]: did it match?).
    Not modelled: subqueries, type conversions of columns, interval arithmetic; conditions whose outermost node is a
    function call or CASE ([other]). *)
From Coq Require Import SpecFloat.
From Verif Require Import Base PyVal Utils_Model Calc_Model Str_Model Expr_Syntax Expr_Model.
Open Scope Z_scope.

Inductive hcol :=
| HQ (q : valuer)                                    (* a column without ["@re::match", ...] inside *)
| HIf (c a b : hcol)                                 (* ["#if", c, a, b] *)
| HMatch (pattern : text) (q : valuer).              (* ["#if", ["@re::match", pattern, q], ["#const", 1], ["#const", 0]] *)

(** compiler.py:2262-2313 parse_calculate: the columns of an expression. *)
Fixpoint columns (e : expr) : list text :=
  match e with
  | EConst _ => []
  | ECol n => [n]
  | EParen a | ENeg a | ENot a => columns a
  | EAnd a b | EOr a b | EIs a b | EBin _ a b | EIfNull a b => columns a ++ columns b
  | EIn a l | ECoalesce a l => columns a ++ flat_map columns l
  | EBetween a b c => columns a ++ columns b ++ columns c
  | EIf a b f => columns a ++ columns b ++ match f with Some c => columns c | None => [] end
  | ECase o ifs els =>
    match o with Some c => columns c | None => [] end ++ match els with Some c => columns c | None => [] end ++
    flat_map (fun wt => columns (fst wt) ++ columns (snd wt)) ifs
  | EFun _ l => flat_map columns l
  end.

(** compiler.py:1920-1921: the regular expression of a LIKE pattern. *)
Definition having_pattern (p : text) : text :=
  if text_eqb p (t "%%") then t ".*"
  else py_replace (py_replace p (t "%") (t ".*")) (t ".*.*") (t "%").

Section Having.
Variable frepr : spec_float -> text.
Variable ident : val -> val -> bool.
Variable ext : text -> option (list val -> val).
Variable lib : text -> list val -> val.
Variable schema : option (list text).                (* names of the select list; None: select * *)
Variable other : expr -> res hcol.                   (* outermost function calls: not modelled *)
Notation compile := (compile frepr ident ext).
Notation func_column := (func_column frepr ident ext).

Definition in_schema (n : text) : bool :=
  match schema with None => true | Some l => existsb (text_eqb n) l end.

(** compiler.py:1839-1861 (left side) and 1873-1897 (right side): the columns are checked and the expression compiled. *)
Definition operand (e : expr) : res valuer :=
  if forallb in_schema (columns e) then Ok (compile e) else Err CompileError.
Definition operands (a b : expr) : res (list valuer) :=
  do x <- operand a; do y <- operand b; Ok [x; y].

(** compiler.py:1813-1931.  And 1814-1820, Or 1821-1827, comparisons 1899-1916, In 1917-1919 with the list 1864-1872,
    Like 1920-1925, Paren 1926-1927, the rest 1928-1931.  A root Column has an Identifier as its operand, which is no
    calculation; a constant has a text, or no operand at all. *)
Fixpoint having (e : expr) : res hcol :=
  match e with
  | EAnd a b => do x <- having a; do y <- having b; Ok (HIf x y (HQ (QConst (VInt 0))))
  | EOr a b => do x <- having a; do y <- having b; Ok (HIf x (HQ (QConst (VInt 1))) y)
  | EParen a => having a
  | EBin k a b =>
    if text_eqb k (t "like") then
      do x <- operand a; do y <- operand b;
      match y with
      | QConst (VStr p) => Ok (HMatch (having_pattern p) x)
      | QConst _ => Err AttributeError               (* .replace of a value that is no text *)
      | _ => Err CompileError
      end
    else if existsb (text_eqb k) [t "eq"; t "neq"; t "gt"; t "gte"; t "lt"; t "lte"] then
      do l <- operands a b; Ok (HQ (QMysql k l))
    else do l <- operands a b; Ok (HQ (func_column k l))
  | EIs a b => do l <- operands a b; Ok (HQ (func_column (t "is") l))
  | EIn a l => do x <- operand a; Ok (HQ (QIn x (map compile l)))
  | ENot a => do x <- operand a; Ok (HQ (func_column (t "not") [x]))
  | ENeg a => do x <- operand a; Ok (HQ (func_column (t "neg") [x]))
  | EBetween a _ _ => do x <- operand a; Ok (HQ (func_column (t "between") [x]))
  | EIf c _ _ => do x <- operand c; Ok (HQ (func_column (t "if") [x]))
  | ECol _ => Err CompileError
  | EConst VNone => Err KeyError
  | EConst _ => Err CompileError
  | EIfNull _ _ | ECoalesce _ _ | ECase _ _ _ | EFun _ _ => other e
  end.

(** Evaluation (external package, see the header). *)
Variable rematch : text -> val -> bool.
Fixpoint hev (row : text -> val) (h : hcol) : val :=
  match h with
  | HQ q => ev frepr ident ext lib row q
  | HIf c a b => if truthy (hev row c) then hev row a else hev row b
  | HMatch p q => if rematch p (ev frepr ident ext lib row q) then VInt 1 else VInt 0
  end.
(** Is a result row kept?  compiler.py:526-530: no HAVING, no condition. *)
Definition keeps (h : hcol) (row : text -> val) : bool := truthy (hev row h).
Definition filter_having (h : hcol) (rows : list (text -> val)) : list (text -> val) := filter (keeps h) rows.
End Having.

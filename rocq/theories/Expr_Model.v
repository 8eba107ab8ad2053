(** Model of the expression compiler (compiler.py:1531-1812 compile_calculate) and of the evaluation of
    the compiled columns.

    Compiled columns are nested lists and dicts interpreted by the external package syncany; [valuer]
    has one constructor per form the modelled code emits.  Trusted reading of syncany ([ev]): a column
    ["#const", v] is v; "$.name" reads the row; ["#if", c, a, b] evaluates a when the value of c is true
    in the sense of Python's [if], else b; ["@mysql::f", ...] and ["@f", ...] call a registered function
    on the values of the arguments; ["#make", ...] builds the given list or dict; a dict with "#case"
    evaluates the entry whose key is the value of "#case" (a key ":n" stands for the number n), or "#end".
    Not modelled: subqueries, CAST, Anonymous calls, interval arithmetic, @variables, column scope depth
    (joins) and the syncany_valuer marks (Where_Model). *)
From Coq Require Import SpecFloat.
From Verif Require Import Base PyVal Utils_Model Calc_Model Expr_Syntax.
Open Scope Z_scope.

Inductive valuer :=
| QNone                                              (* the column None *)
| QConst (v : val)                                   (* ["#const", v] *)
| QCol (name : text)                                 (* "$.name" *)
| QIf (c a b : valuer)                               (* ["#if", c, a, b] *)
| QMysql (name : text) (args : list valuer)          (* ["@mysql::name", ...] *)
| QLib (name : text) (args : list valuer)            (* ["@name", ...] *)
| QIn (a : valuer) (l : list valuer)                 (* ["@mysql::in", a, ["#make", [...]]] *)
| QBetween (e lo hi : valuer)                        (* ["#make", {key_value, low_value, high_value}, [":#if", gte, lte, 0]] *)
| QDict (d : list (val * valuer)).                   (* {"#case": ..., ...} *)

(** Python dict d[k] = v on keys that are str, bool or None: replace in place or append. *)
Fixpoint vset {A} (d : list (val * A)) (k : val) (v : A) : list (val * A) :=
  match d with
  | [] => [(k, v)]
  | (k', v') :: r => if pyeq k' k then (k', v) :: r else (k', v') :: vset r k v
  end.
Fixpoint vget {A} (d : list (val * A)) (k : val) : option A :=
  match d with
  | [] => None
  | (k', v) :: r => if pyeq k' k then Some v else vget r k
  end.

Section Expr.
Variable frepr : spec_float -> text.                 (* str(float) *)
Variable ident : val -> val -> bool.                 (* object identity of two values of one class *)
Variable ext : text -> option (list val -> val).     (* the remaining registered MySQL functions *)
Variable lib : text -> list val -> val.              (* calculaters of the external package *)

(** A registered function of two / one parameters (mysql_calculater.py:22-102). *)
Definition op2 (f : val -> val -> res val) (args : list val) : val :=
  match call_func (dispatch 2 2) (fun2 f) args with Ok v => v | Err _ => VNone end.
Definition op1 (f : val -> res val) (args : list val) : val :=
  match call_func (dispatch 1 1) (fun1 f) args with Ok v => v | Err _ => VNone end.

(** The function table MysqlCalculater.funcs (mysql_calculater.py:15-20; logical_funcs.py:9-231). *)
Definition mysql (name : text) : option (list val -> val) :=
  if text_eqb name (t "eq") then Some (op2 (mysql_eq frepr))
  else if text_eqb name (t "neq") then Some (op2 (mysql_neq frepr))
  else if text_eqb name (t "gt") then Some (op2 (mysql_gt frepr))
  else if text_eqb name (t "gte") then Some (op2 (mysql_gte frepr))
  else if text_eqb name (t "lt") then Some (op2 (mysql_lt frepr))
  else if text_eqb name (t "lte") then Some (op2 (mysql_lte frepr))
  else if text_eqb name (t "not") then Some (op1 mysql_not)
  else if text_eqb name (t "is") then Some (op2 (mysql_is frepr ident))
  else if text_eqb name (t "is_not") then Some (op2 (mysql_is_not frepr ident))
  else ext name.

(** calculaters/__init__.py:58-61. *)
Definition is_mysql_func (name : text) : bool := match mysql name with Some _ => true | None => false end.

(** compiler.py:1702-1703, 1780, 1801-1812: ("@mysql::" + f) if is_mysql_func(f) else ("@" + f). *)
Definition func_column (name : text) (args : list valuer) : valuer :=
  if is_mysql_func name then QMysql name args else QLib name args.

(** compiler.py:2878-2885 is_const, on the modelled nodes. *)
Definition is_const (e : expr) : bool :=
  match e with
  | EConst _ => true
  | ENeg (EConst _) => true
  | _ => false
  end.
(** compiler.py:2706-2745 parse_const of a constant: its value; a minus sign in front of a number negates
    it and is ignored in front of anything else. *)
Definition const_value (e : expr) : val :=
  match e with
  | EConst v => v
  | ENeg (EConst (VInt z)) => VInt (- z)
  | ENeg (EConst (VFloat f)) => VFloat (SFopp f)
  | ENeg (EConst v) => v
  | _ => VNone
  end.

(** compiler.py:1673-1674: the dict key of a WHEN constant. *)
Definition case_key (v : val) : val :=
  match v with
  | VInt z => VStr (t ":" ++ str_of_Z z)
  | VFloat f => VStr (t ":" ++ frepr f)
  | _ => v
  end.

(** compiler.py:1644-1656 parse_coalesce. *)
Fixpoint coalesce (l : list valuer) : valuer :=
  match l with
  | [] => QNone
  | [c] => c
  | c :: r => QIf (QLib (t "is_null") [c]) (coalesce r) c
  end.
(** compiler.py:1685-1694 build_if over the remaining WHEN branches. *)
Fixpoint build_if (value : option valuer) (ifs : list (valuer * valuer)) (els : valuer) : valuer :=
  match ifs with
  | [] => els
  | (w, a) :: r =>
    QIf (match value with None => w | Some v => QMysql (t "eq") [v; w] end) a (build_if value r els)
  end.

(** compiler.py:1531-1812 compile_calculate.  Paren 1724-1725, Between 1726-1731, Column 1732-1735,
    Const 1751-1752, Not 1753-1763, And/Or 1773-1786, Binary 1788-1812, If 1633-1641,
    IfNull/Coalesce 1642-1660, Case 1661-1696, Func 1697-1713, Neg 1537-1539. *)
Fixpoint compile (e : expr) : valuer :=
  match e with
  | EConst v => QConst v
  | ECol n => QCol n
  | EParen a => compile a
  | ENeg a => QLib (t "neg") [compile a]
  | ENot (EIs a b) => QMysql (t "is_not") [compile a; compile b]
  | ENot a => QMysql (t "not") [compile a]
  | EAnd a b => QIf (compile a) (compile b) (QConst (VInt 0))
  | EOr a b => QIf (compile a) (QConst (VInt 1)) (compile b)
  | EIs a b => func_column (t "is") [compile a; compile b]
  | EBin k a b => func_column k [compile a; compile b]
  | EIn a l => QIn (compile a) (map compile l)
  | EBetween a lo hi => QBetween (compile a) (compile lo) (compile hi)
  | EIf c a f => QIf (compile c) (compile a)
                     (match f with Some b => compile b | None => QConst (VInt 0) end)
  | EIfNull a b => let c := compile a in QIf (QLib (t "is_null") [c]) (compile b) c
  | ECoalesce a l => let c := compile a in QIf (QLib (t "is_null") [c]) (coalesce (map compile l)) c
  | ECase this ifs els =>
    let branches := map (fun wt => (compile (fst wt), compile (snd wt))) ifs in
    match this with
    | Some v =>
      if forallb (fun wt => is_const (fst wt)) ifs then
        let d := fold_left (fun d wt => vset d (case_key (const_value (fst wt))) (compile (snd wt))) ifs
                           [(VStr (t "#case"), compile v)] in
        QDict (vset d (VStr (t "#end")) (match els with Some b => compile b | None => QNone end))
      else build_if (Some (compile v)) branches (match els with Some b => compile b | None => QConst (VInt 0) end)
    | None => build_if None branches (match els with Some b => compile b | None => QConst (VInt 0) end)
    end
  | EFun k l => func_column k (map compile l)
  end.

(** ** Evaluation (external package, see the header) *)

(** The value a "#case" key stands for. *)
Definition key_value (k : val) : val :=
  match k with
  | VStr (58%N :: r) => match int_of_text r with
                        | Ok z => VInt z
                        | Err _ => match float_of_text r with Ok f => VFloat f | Err _ => k end
                        end
  | _ => k
  end.
Definition is_control (k : val) : bool := pyeq k (VStr (t "#case")) || pyeq k (VStr (t "#end")).
Definition case_lookup (d : list (val * val)) : val :=
  let v := match vget d (VStr (t "#case")) with Some v => v | None => VNone end in
  match find (fun kv => negb (is_control (fst kv)) && pyeq (key_value (fst kv)) v) (rev d) with
  | Some kv => snd kv
  | None => match vget d (VStr (t "#end")) with Some r => r | None => VNone end
  end.

Definition call_mysql (name : text) (args : list val) : val :=
  match mysql name with Some f => f args | None => VNone end.
(** is_null of the external package; everything else through [lib]. *)
Definition call_lib (name : text) (args : list val) : val :=
  if text_eqb name (t "is_null") then VBool (match args with [v] => is_none v | _ => false end)
  else lib name args.

Fixpoint ev (row : text -> val) (q : valuer) : val :=
  match q with
  | QNone => VNone
  | QConst v => v
  | QCol n => row n
  | QIf c a b => if truthy (ev row c) then ev row a else ev row b
  | QMysql n args => call_mysql n (map (ev row) args)
  | QLib n args => call_lib n (map (ev row) args)
  | QIn a l => guarded (mysql_in frepr (ev row a) (map (ev row) l))
  | QBetween e lo hi =>
    let x := ev row e in
    if truthy (call_mysql (t "gte") [x; ev row lo]) then call_mysql (t "lte") [x; ev row hi] else VInt 0
  | QDict d => case_lookup (map (fun kv => (fst kv, ev row (snd kv))) d)
  end.
End Expr.

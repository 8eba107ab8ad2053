(** Model of the join rewrites: compiler.py:2923-3201 (optimize_rewrite and its helpers), 2003-2077
    (parse_joins), 2085-2260 (parse_on_condition).

    Simplifications.  A condition is the list of its AND conjuncts ([optimize_rewrite_parse_condition] and
    [parse_on_condition] walk the AND tree and look at each conjunct); a comparison with a subquery is an
    [AOther].  [FROM (subquery)] counts as a table with its alias.  Select list, GROUP BY, HAVING, ORDER BY
    and LIMIT are copied by every rewrite and are left out.  [related_tables] is a Python set; here a
    list.  Type conversions of columns (CAST, convert_xxx) are not modelled.  What the package does with the
    compiled join is not in /repo: [execute] reads it as a LEFT JOIN whose match test is the compiled
    keys, queries and filter. *)
From Verif Require Import Base PyVal Joins_Syntax.

(** A table name, as [column["table_name"]] may be None. *)
Definition tab_eqb (a b : option text) : bool :=
  match a, b with Some x, Some y => text_eqb x y | None, None => true | _, _ => false end.
Definition tab_mem (a : option text) (l : list (option text)) : bool := existsb (tab_eqb a) l.

(** compiler.py:2854-2876 is_column + 2637 parse_column. *)
Definition col_of (o : operand) : option col := match o with OCol c => Some c | OExpr _ _ => None end.
(** compiler.py:2262-2312 parse_calculate: the columns an expression reads. *)
Definition ocolumns (o : operand) : list col := match o with OCol c => [c] | OExpr cols _ => cols end.
Definition acolumns (a : atom) : list col :=
  match a with ACmp _ l r => ocolumns l ++ ocolumns r | AIn l _ => ocolumns l | AOther cols _ => cols end.

(** compiler.py:3148-3201 optimize_rewrite_parse_condition of one conjunct: the list it goes to, with the
    tables added to related_tables. [can] is can_on_expressions_tables ([[]]: None). *)
Inductive class := ClOn (related : list (option text)) | ClConst | ClCalc.

Definition is_tab (T : text) (c : col) : bool := tab_eqb (ctab c) (Some T).
Definition in_can (can : list text) (c : col) : bool := tab_mem (ctab c) (map Some can).

Definition on_value (T : text) (can : list text) (l r : operand) : option operand :=
  let from_left :=
    match col_of l with
    | Some c => if is_tab T c
                then match can, col_of r with
                     | _ :: _, Some c' => if in_can can c' then Some r else None
                     | _, _ => Some r
                     end
                else None
    | None => None
    end in
  match from_left with
  | Some v => Some v
  | None =>
    match col_of r with
    | Some c => if is_tab T c
                then match can, col_of l with
                     | _ :: _, Some c' => if in_can can c' then Some l else None
                     | _, _ => Some l
                     end
                else None
    | None => None
    end
  end.

Definition classify (T : text) (can : list text) (a : atom) : class :=
  match a with
  | ACmp _ l r =>
    match on_value T can l r with
    | None => ClCalc
    | Some v => match ocolumns v with [] => ClConst | cs => ClOn (map ctab cs) end
    end
  | AIn _ _ => ClCalc       (* the value is a Python list: compiler.py:3188-3192 *)
  | AOther _ _ => ClCalc
  end.

Definition is_on T can a := match classify T can a with ClOn _ => true | _ => false end.
Definition is_const T can a := match classify T can a with ClConst => true | _ => false end.
Definition is_calc T can a := match classify T can a with ClCalc => true | _ => false end.
Definition on_atoms T can l := filter (is_on T can) l.
Definition const_atoms T can l := filter (is_const T can) l.
Definition calc_atoms T can l := filter (is_calc T can) l.
Definition related T can (l : list atom) : list (option text) :=
  flat_map (fun a => match classify T can a with ClOn ts => ts | _ => [] end) l.

(** ** compiler.py:2942-2986 optimize_rewrite_multi_select: FROM a, b, ... *)
Fixpoint multi_joins (can : list text) (w : list atom) (ts : list text) : list join :=
  match ts with
  | [] => []
  | tb :: r => Join tb SLeft KNone (on_atoms tb can w ++ const_atoms tb can w) :: multi_joins (can ++ [tb]) w r
  end.
(** The joins of the original query are not copied (2967-2974). *)
Definition multi_select (q : query) : query :=
  match qfrom q with
  | p :: t1 :: r => Query [p] (multi_joins [p] (qwhere q) (t1 :: r)) (qwhere q)
  | _ => q
  end.

(** ** compiler.py:3078-3134 optimize_rewrite_inner_join *)
Definition not_null (c : col) : atom :=
  AOther [c] (fun vs => match vs with [VNone] => false | _ => true end).
(** 3092-3100: the columns of the ON conjuncts of a join related to the primary table ... *)
Definition join_fields (p : text) (j : join) : list col :=
  if tab_mem (Some p) (related (jtab j) [] (jon j))
  then flat_map acolumns (on_atoms (jtab j) [] (jon j)) else [].
(** ... 3102-3103: that are qualified and not of the primary table. *)
Definition inner_fields (p : text) (js : list join) : list col :=
  filter (fun c => match ctab c with Some tb => negb (text_eqb tb p) | None => false end)
         (flat_map (join_fields p) js).
Definition as_left (j : join) : join := Join (jtab j) SLeft KNone (jon j).
Definition inner_rewrite (q : query) : query :=
  match qfrom q with
  | [] => q
  | p :: _ =>
    match inner_fields p (qjoins q) with
    | [] => q
    | fs => Query (qfrom q) (map as_left (qjoins q)) (qwhere q ++ map not_null fs)
    end
  end.

(** ** compiler.py:2988-3076 optimize_rewrite_right_join *)
Inductive jtype := TPrimary | TRight | TOther.
Record jt := JT { t_name : text; t_related : list (option text); t_on : list atom; t_const : list atom;
                  t_calc : list atom; t_type : jtype }.

Definition jt_of (j : join) : jt :=
  JT (jtab j) (related (jtab j) [] (jon j)) (on_atoms (jtab j) [] (jon j)) (const_atoms (jtab j) [] (jon j))
     (calc_atoms (jtab j) [] (jon j)) (match jside j with SRight => TRight | _ => TOther end).
(** 2994-3002: the three lists are one list, so every WHERE conjunct ends up in calculate_expressions. *)
Definition jt_primary (p : text) (w : list atom) : jt := JT p (related p [] w) [] [] w TPrimary.

Definition is_right (s : jt) : bool := match t_type s with TRight => true | _ => false end.
(** 3018-3021: the last join of the list that is a RIGHT join related to the selected table. *)
Definition next_selected (sel : jt) (js : list jt) : option jt :=
  fold_left (fun acc j => if is_right j && tab_mem (Some (t_name sel)) (t_related j) then Some j else acc) js None.
(** 3016-3025: the loop; [None] when the fuel runs out. *)
Fixpoint select_loop (fuel : nat) (sel : jt) (js : list jt) : option jt :=
  match fuel with
  | O => None
  | S f => match next_selected sel js with None => Some sel | Some j => select_loop f j js end
  end.

Definition take_jt (n : option text) (js : list jt) : option (jt * list jt) :=
  match find (fun j => tab_eqb (Some (t_name j)) n) js with
  | Some j => Some (j, filter (fun j => negb (tab_eqb (Some (t_name j)) n)) js)
  | None => None
  end.
(** 3029-3043 resort_join_tables; each call pops a table, so the number of tables is enough fuel. *)
Fixpoint resort (fuel : nat) (rel : list (option text)) (on : list atom) (js : list jt) : list jt * list jt :=
  match fuel with
  | O => ([], js)
  | S f =>
    (fix go (rel : list (option text)) (js : list jt) : list jt * list jt :=
       match rel with
       | [] => ([], js)
       | n :: rest =>
         match take_jt n js with
         | None => go rest js
         | Some (j, js1) =>
           if is_right j then
             let '(sub, js2) := resort f (t_related j) (t_on j) js1 in
             let '(more, js3) := go rest js2 in
             (JT (t_name j) (t_related j) on (t_const j) (t_calc j) TOther :: sub ++ more, js3)
           else
             let '(more, js3) := go rest js1 in
             (JT (t_name j) (t_related j) (t_on j ++ on) (t_const j) (t_calc j) (t_type j) :: more, js3)
         end
       end) rel js
  end.

Definition remove_jt (s : jt) (js : list jt) : list jt :=
  filter (fun j => negb (text_eqb (t_name j) (t_name s))) js.

(** [None]: the compiler does not return. *)
Definition right_rewrite (fuel : nat) (q : query) : option query :=
  match qfrom q with
  | [] => Some q
  | p :: _ =>
    let prim := jt_primary p (qwhere q) in
    let js := map jt_of (qjoins q) in
    match select_loop fuel prim js with
    | None => None
    | Some sel =>
      match t_type sel with
      | TPrimary => Some q
      | _ =>
        let js1 := remove_jt sel js ++ [prim] in
        let '(sorted, rest) := resort (S (length js1)) (t_related sel) (t_on sel) js1 in
        let js2 := sorted ++ rest in
        if existsb is_right js2 then Some q
        else Some (Query [t_name sel]
                         (map (fun j => Join (t_name j) SLeft KNone (t_on j ++ t_const j ++ t_calc j)) js2)
                         (t_const sel ++ t_calc prim ++ t_calc sel))
      end
    end
  end.

(** ** compiler.py:2923-2940 optimize_rewrite *)
Definition optimize (fuel : nat) (q : query) : option query :=
  let q1 := multi_select q in
  match qjoins q1 with
  | [] => Some q1
  | _ =>
    let right := existsb (fun j => match jside j with SRight => true | _ => false end) (qjoins q1) in
    match (if right then right_rewrite fuel q1 else Some q1) with
    | None => None
    | Some q2 =>
      if existsb (fun j => match jkind j with KInner => true | _ => false end) (qjoins q2)
      then Some (inner_rewrite q2) else Some q2
    end
  end.

(** ** compiler.py:2085-2260 parse_on_condition *)
Record on_plan := Plan { o_keys : list (text * operand);            (* primary_keys / calculate_expressions *)
                         o_query : list (text * (val -> bool));     (* querys, keyed by the bare column name *)
                         o_having : list atom }.                    (* having_expressions *)

Section On.
Variable cmpv : cmp -> val -> val -> bool.
Variable T : text.

Definition no_args (o : operand) : val := match o with OCol _ => VNone | OExpr _ f => f [] end.
Definition unqualified (c : col) : bool := match ctab c with None => true | Some _ => false end.

(** 2102-2187 parse, then build_query_condition (2189-2205). *)
Definition parse_on1 (p : on_plan) (a : atom) : res on_plan :=
  match a with
  | ACmp o l r =>
    let lc := match col_of l with Some c => if is_tab T c then Some c else None | None => None end in
    let rc := match col_of r with Some c => if is_tab T c then Some c else None | None => None end in
    (* the condition column, the other operand, and whether it may become a key *)
    let '(cond, value, keyable) :=
      match o, lc, rc with
      | CEq, Some c, _ => (Some c, r, true)
      | CEq, None, Some c => (Some c, l, true)
      | _, _, _ => (col_of l, r, false)
      end in
    match cond with
    | None => Ok (Plan (o_keys p) (o_query p) (o_having p ++ [a]))
    | Some c =>
      if unqualified c then Err CompileError
      else match ocolumns value with
           | [] => Ok (Plan (o_keys p) (o_query p ++ [(cname c, fun v => cmpv o v (no_args value))]) (o_having p))
           | _ =>
             if keyable then
               if existsb (fun k => text_eqb (fst k) (cname c)) (o_keys p) then Err CompileError
               else Ok (Plan (o_keys p ++ [(cname c, value)]) (o_query p) (o_having p))
             else Ok (Plan (o_keys p) (o_query p) (o_having p ++ [a]))
           end
    end
  | AIn l f =>
    match col_of l with
    | None => Ok (Plan (o_keys p) (o_query p) (o_having p ++ [a]))
    | Some c => if unqualified c then Err CompileError
                else Ok (Plan (o_keys p) (o_query p ++ [(cname c, f)]) (o_having p))
    end
  | AOther _ _ => Ok (Plan (o_keys p) (o_query p) (o_having p ++ [a]))
  end.
Fixpoint parse_on (p : on_plan) (l : list atom) : res on_plan :=
  match l with
  | [] => Ok p
  | a :: r => match parse_on1 p a with Err x => Err x | Ok p' => parse_on p' r end
  end.
End On.

Section Run.
Variable cmpv : cmp -> val -> val -> bool.
Variable d : db.

(** Reading a column in the compiled query: compiler.py:804-808 compile_join_column_field; an
    unqualified column is one of the primary table [p]. *)
Definition get_col (p : text) (e : env) (c : col) : val :=
  match assoc (match ctab c with Some tb => tb | None => p end) e with
  | Some (Some r) => match assoc (cname c) r with Some v => v | None => VNone end
  | _ => VNone
  end.
Definition get_op (p : text) (e : env) (o : operand) : val :=
  match o with OCol c => get_col p e c | OExpr cols f => f (map (get_col p e) cols) end.
Definition test_atom (p : text) (e : env) (a : atom) : bool :=
  match a with
  | ACmp o l r => cmpv o (get_op p e l) (get_op p e r)
  | AIn l f => f (get_op p e l)
  | AOther cols f => f (map (get_col p e) cols)
  end.

(** A row [r] of the joined table [T] is joined to [e] when its key columns equal the key values, it meets the
    queries (which are put to the joined table, compiler.py:772-773), and the filter holds. *)
Definition joins_row (p T : text) (pl : on_plan) (e : env) (r : row) : bool :=
  let get n := match assoc n r with Some v => v | None => VNone end in
  forallb (fun k => cmpv CEq (get (fst k)) (get_op p e (snd k))) (o_keys pl) &&
  forallb (fun k => snd k (get (fst k))) (o_query pl) &&
  forallb (test_atom p ((T, Some r) :: e)) (o_having pl).
Definition run_join (p T : text) (pl : on_plan) (es : list env) : list env :=
  flat_map (fun e => match filter (joins_row p T pl e) (d T) with
                     | [] => [(T, None) :: e]
                     | rs => map (fun r => (T, Some r) :: e) rs
                     end) es.

(** compiler.py:2006-2008: the join types that compile. *)
Definition join_type_ok (j : join) : bool :=
  match jkind j with KNone | KCross => true | _ => false end &&
  match jside j with SNone | SLeft => true | _ => false end.

Fixpoint run_joins (p : text) (js : list join) (es : list env) : res (list env) :=
  match js with
  | [] => Ok es
  | j :: r =>
    if join_type_ok j then
      match parse_on cmpv (jtab j) (Plan [] [] []) (jon j) with
      | Err x => Err x
      | Ok pl => run_joins p r (run_join p (jtab j) pl es)
      end
    else Err CompileError
  end.

(** compiler.py:386-405 (one FROM table only) and 440-441. *)
Definition execute (q : query) : res (list env) :=
  match qfrom q with
  | [p] =>
    match run_joins p (qjoins q) (map (fun r => [(p, Some r)]) (d p)) with
    | Err x => Err x
    | Ok es => Ok (filter (fun e => forallb (test_atom p e) (qwhere q)) es)
    end
  | _ => Err CompileError
  end.

(** The whole: rewrite, compile, run.  [None]: the compiler does not return. *)
Definition run_query (fuel : nat) (q : query) : option (res (list env)) :=
  match optimize fuel q with None => None | Some q' => Some (execute q') end.
End Run.

(** Model of the compilation of window columns: compiler.py:433-434 and 494-507 (in the loop over the select list), 1349-1428
    compile_window_column, 1430-1469 compile_window_key, 1471-1478 compile_window_order, 1480-1510 compile_window_value, 1512-1530
    compile_window_calculate, 2079-2083 parse_windows, and of the execution of such a query: taskers/query.py:123-140, 296-337, 339-366.

    Not modelled: joins, GROUP BY together with window functions, aggregates with several arguments and those called by name (array
    aggregates), @batch.  Trusted reading of the external package ([win_value], after tests/test_example_window_aggregate.py): the first task
    gives one row per row of the source, in the same order; the value of a :#partition column is computed on the rows with the same partition
    key (Python ==; all the rows without one), in the stable order of the order key; an aggregate is threaded through these rows up to the current
    one when there is an order key and through all of them when there is none, a window function is called with the whole list and the
    position of the current row.  The window functions themselves are those of Window_Model, here a parameter. *)
From Coq Require Import SpecFloat.
From Verif Require Import Base PyVal Utils_Model Calc_Model Config_Model Agg_Model Expr_Syntax Expr_Model Group_Syntax Group_Model Select_Model Winq_Syntax.
Open Scope nat_scope.

(** compiler.py:1389-1409, the column: partition key, order key with the directions, values, calculater. *)
Inductive wcalc := KAgg (c : calculater) | KFun (name : text).
Record wcol := mkwcol { wc_keys : option (list key); wc_order : option (list (key * bool)); wc_values : option (list valuer); wc_calc : wcalc }.
(** config["schema"]. *)
Inductive scol := SPlain (q : valuer) | SWin (w : wcol).
(** config["schema"], and the columns of config["aggregate"]["window_schema"] having a final value: their hidden columns and the final value. *)
Record wconfig := mkwconfig { s_cols : list (text * scol); s_finals : list (text * (list text * valuer)) }.

(** The schema as compile_window_key uses it: it takes the column of the item (1438-1441). *)
Definition erase (schema : list (text * scol)) : list (text * gcol) :=
  map (fun nc => (fst nc, match snd nc with SPlain q => GPlain q | SWin _ => GAggr end)) schema.

Section Window.
Variable frepr : spec_float -> text.
Variable ident : val -> val -> bool.
Variable ext : text -> option (list val -> val).
Variable lib : text -> list val -> val.
Variable known : text -> bool.                       (* find_window_aggregate_calculater *)
Notation compile := (compile frepr ident ext).
Notation ev := (ev frepr ident ext lib).

(** compiler.py:1430-1469, on a list which is not empty. *)
Definition window_key (schema : list (text * scol)) (k : group_item) : key := compile_key frepr ident ext (erase schema) k.
(** compiler.py:1389 and 1391: None for an empty clause. *)
Definition some_list {A} (l : list A) : option (list A) := match l with [] => None | _ => Some l end.

(** compiler.py:1357-1375 and 1393, 1480-1510: the values; DISTINCT only with COUNT. *)
Definition window_values (f : wfun) : res (option (list valuer)) :=
  match f with
  | WAgg a => if a_distinct a && negb (match a_fun a with FCount => true | _ => false end) then Err CompileError
              else Ok (Some [compile_value frepr ident ext a])
  | WNamed _ distinct args => if distinct then Err CompileError else Ok (some_list (map compile args))
  end.
(** compiler.py:1512-1530. *)
Definition window_calculate (f : wfun) : res wcalc :=
  match f with
  | WAgg a => do c <- calculater_of a; Ok (KAgg c)
  | WNamed name _ _ => if known name then Ok (KFun name) else Err CompileError
  end.

(** compiler.py:1355-1410, the column of one window function. *)
Definition window_column (windows : list (text * window)) (schema : list (text * scol)) (c : wcall) : res wcol :=
  do vs <- window_values (w_fun c);
  do w <- match w_name c with
          | Some n => match assoc n windows with Some w => Ok w | None => Err CompileError end
          | None => Ok (w_inline c)
          end;
  do k <- window_calculate (w_fun c);
  Ok (mkwcol (some_list (map (window_key schema) (w_partition w)))
             (some_list (map (fun ko => (window_key schema (fst ko), snd ko)) (w_order w))) vs k).

(** compiler.py:1411-1422: the hidden columns of an expression. *)
Fixpoint hidden_columns (windows : list (text * window)) (schema : list (text * scol)) (holes : list (text * wcall)) : res (list (text * scol)) :=
  match holes with
  | [] => Ok schema
  | (h, c) :: r => do w <- window_column windows schema c; hidden_columns windows (dict_set h (SWin w) schema) r
  end.

(** compiler.py:435-507: one item of the select list; 1411-1413 a window function, 1424-1427 an expression around window functions, whose
    column is taken out of config["schema"] again. *)
Definition wcompile_item (windows : list (text * window)) (cfg : wconfig) (alias : text) (i : witem) : res wconfig :=
  let plain q := Ok (mkwconfig (dict_set alias (SPlain q) (s_cols cfg)) (s_finals cfg)) in
  match i with
  | WConst v => plain (QConst v)
  | WCol n => plain (QCol n)
  | WCalc e => plain (compile e)
  | WWin c => do w <- window_column windows (s_cols cfg) c;
              Ok (mkwconfig (dict_set alias (SWin w) (s_cols cfg)) (dict_del alias (s_finals cfg)))
  | WExpr e holes => do schema <- hidden_columns windows (s_cols cfg) holes;
              Ok (mkwconfig (dict_del alias (dict_set alias (SPlain (compile e)) schema)) (dict_set alias (map fst holes, compile e) (s_finals cfg)))
  end.
Fixpoint wcompile_items (windows : list (text * window)) (cfg : wconfig) (l : list (text * witem)) : res wconfig :=
  match l with
  | [] => Ok cfg
  | (alias, i) :: r => do cfg <- wcompile_item windows cfg alias i; wcompile_items windows cfg r
  end.
(** compiler.py:2079-2083. *)
Definition parse_windows (l : list (text * window)) : list (text * window) :=
  fold_left (fun d nw => dict_set (fst nw) (snd nw) d) l [].
Definition wcompile (q : wquery) : res wconfig := wcompile_items (parse_windows (wq_windows q)) (mkwconfig [] []) (wq_items q).

(** ** Execution *)
Variable str_of : val -> text.
Variable leK : val -> val -> bool.
Variable nested : text -> row -> val.                (* the value of a window column used as a key *)
Variable fn : text -> list (list val * list val) -> nat -> val.

Definition keys_of (ks : option (list key)) (r : row) : list val :=
  match ks with None => [] | Some l => map (key_value frepr ident ext lib nested r) l end.
Definition orders_of (ks : option (list (key * bool))) : list (key * bool) := match ks with None => [] | Some l => l end.
Fixpoint le_rows (ks : list (key * bool)) (x y : row) : bool :=
  match ks with
  | [] => true
  | (k, desc) :: r =>
    let a := key_value frepr ident ext lib nested (if desc : bool then y else x) k in
    let b := key_value frepr ident ext lib nested (if desc then x else y) k in
    if leK a b then if leK b a then le_rows r x y else true else false
  end.
(** Position of row number [i]. *)
Fixpoint position (i : nat) (l : list (nat * row)) : nat :=
  match l with [] => 0 | (j, _) :: r => if i =? j then 0 else S (position i r) end.
Definition values_of (vs : option (list valuer)) (r : row) : list val := match vs with None => [] | Some l => map (ev r) l end.
Definition first_value (vs : list val) : val := match vs with v :: _ => v | [] => VNone end.

Definition win_value (rows : list row) (ir : nat * row) (w : wcol) : res val :=
  let part := filter (fun x => same_key (keys_of (wc_keys w) (snd ir)) (keys_of (wc_keys w) (snd x))) (combine (seq 0 (length rows)) rows) in
  let sorted := sort (fun x y => le_rows (orders_of (wc_order w)) (snd x) (snd y)) part in
  let pos := position (fst ir) sorted in
  match wc_calc w with
  | KAgg c =>
    let used := match wc_order w with None => part | Some _ => firstn (S pos) sorted end in
    do s <- run (step str_of c) (init c) (map (fun x => first_value (values_of (wc_values w) (snd x))) used);
    final_value c s
  | KFun name =>
    Ok (fn name (map (fun x => (map (fun ko => key_value frepr ident ext lib nested (snd x) (fst ko)) (orders_of (wc_order w)),
                                values_of (wc_values w) (snd x))) sorted) pos)
  end.

(** A row of the first task. *)
Fixpoint wfirst_row (rows : list row) (ir : nat * row) (schema : list (text * scol)) : res (list (text * val)) :=
  match schema with
  | [] => Ok []
  | (n, SPlain q) :: r => do cs <- wfirst_row rows ir r; Ok ((n, ev (snd ir) q) :: cs)
  | (n, SWin w) :: r => do v <- win_value rows ir w; do cs <- wfirst_row rows ir r; Ok ((n, v) :: cs)
  end.
(** The second task (query.py:305-331, 339-358), when there are final values: the columns of the first row copied, the hidden ones left out, the
    final values appended. *)
Definition copied (first : list (text * val)) (n : text) : val := match assoc n first with Some v => v | None => VNone end.
Definition wsecond_row (finals : list (text * (list text * valuer))) (first : list (text * val)) : list (text * val) :=
  fold_left (fun row f => dict_set (fst f) (ev (copied first) (snd (snd f))) (filter (fun nv => negb (existsb (text_eqb (fst nv)) (fst (snd f)))) row))
    finals first.
Definition wout_row (cfg : wconfig) (rows : list row) (ir : nat * row) : res (list (text * val)) :=
  do first <- wfirst_row rows ir (s_cols cfg); Ok (wsecond_row (s_finals cfg) first).
Definition run_wquery (cfg : wconfig) (rows : list row) : res (list (list (text * val))) :=
  mapm (wout_row cfg rows) (combine (seq 0 (length rows)) rows).
End Window.

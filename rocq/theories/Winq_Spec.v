(** Window functions, independent of the compiler. *)
From Verif Require Import Base PyVal Utils_Model Calc_Model Expr_Syntax Expr_Spec Agg_Spec Having_Spec Group_Syntax Cast_Syntax Group_Spec Select_Spec Winq_Syntax.
From Coq Require Import Permutation.
Open Scope nat_scope.

(** Rows with their position in the table. *)
Definition irow := (nat * (text -> val))%type.
Definition numbered (rows : list (text -> val)) : list irow := combine (seq 0 (length rows)) rows.

Section Spec.
Variable str_of : val -> text.
Variable value : (text -> val) -> expr -> val.       (* the SQL value of an expression on a row: Expr_Spec.sem *)
Variable same : list val -> list val -> bool.        (* equality of the values of PARTITION BY *)
Variable leK : val -> val -> bool.                   (* the order of values *)
(** A window function other than an aggregate: from the rows of the partition, in order, each as the values of ORDER BY and of the arguments,
    and the position of the current row. *)
Variable fn : text -> list (list val * list val) -> nat -> val.

Definition part_key (w : window) (r : text -> val) : list val := map (group_value value r) (w_partition w).
Definition order_values (w : window) (r : text -> val) : list val := map (fun k => group_value value r (fst k)) (w_order w).
Definition before_or_tied (w : window) (x y : irow) : bool :=
  lex_le leK (map (fun k => ((fun z : irow => group_value value (snd z) (fst k)), snd k)) (w_order w)) x y.

(** The rows with the values of PARTITION BY of the current row [r]. *)
Definition partition (w : window) (rows : list (text -> val)) (r : text -> val) : list irow :=
  filter (fun x => same (part_key w r) (part_key w (snd x))) (numbered rows).

(** The rows over which an aggregate is taken, when the partition is [b ++ c :: a] in order and [c] the current row. *)
Definition frame_rows := (irow -> irow -> bool) -> list irow -> irow -> list irow -> list irow.
(** SQL, ORDER BY without a frame: the rows which come before the current one and those tied with it. *)
Definition sql_frame : frame_rows := fun le b c a => filter (fun x => le x c) (b ++ c :: a).
(** ROWS UNBOUNDED PRECEDING. *)
Definition rows_frame : frame_rows := fun le b c a => b ++ [c].

(** ROWS BETWEEN p PRECEDING AND f FOLLOWING (None: UNBOUNDED). *)
Definition rows_between (f : frame) : frame_rows := fun le b c a =>
  (match fst f with None => b | Some p => skipn (length b - p) b end) ++ c :: (match snd f with None => a | Some n => firstn n a end).
(** The frame of a window: the one written, or the default. *)
Definition frame_of (w : window) : frame_rows := match w_frame w with None => sql_frame | Some f => rows_between f end.

(** [v] is the value of a window function on the row [c] of the table. *)
Inductive call_value (fr : frame_rows) (rows : list (text -> val)) (c : irow) (w : window) : wfun -> val -> Prop :=
| V_whole a v : w_order w = [] ->
    aggregate_value str_of (a_fun a) (a_distinct a) (argument value a (map snd (partition w rows (snd c)))) v ->
    call_value fr rows c w (WAgg a) v
| V_running a bef aft v : w_order w <> [] -> sorted_as (before_or_tied w) (partition w rows (snd c)) (bef ++ c :: aft) ->
    aggregate_value str_of (a_fun a) (a_distinct a) (argument value a (map snd (fr (before_or_tied w) bef c aft))) v ->
    call_value fr rows c w (WAgg a) v
| V_function name args bef aft : sorted_as (before_or_tied w) (partition w rows (snd c)) (bef ++ c :: aft) ->
    call_value fr rows c w (WNamed name false args)
      (fn name (map (fun x : irow => (order_values w (snd x), map (value (snd x)) args)) (bef ++ c :: aft)) (length bef)).

(** The window of a call. *)
Definition window_of (windows : list (text * window)) (c : wcall) : option window :=
  match w_name c with None => Some (w_inline c) | Some n => assoc n windows end.

(** SQL: a named window may be completed with an order and a frame. *)
Definition sql_window (windows : list (text * window)) (c : wcall) : option window :=
  match w_name c with
  | None => Some (w_inline c)
  | Some n => option_map (fun w => mkwindow (w_partition w) (match w_order w with [] => w_order (w_inline c) | o => o end)
                                     (match w_frame w with None => w_frame (w_inline c) | f => f end)) (assoc n windows)
  end.

Inductive witem_value (fr : frame_rows) (windows : list (text * window)) (rows : list (text -> val)) (c : irow) : witem -> val -> Prop :=
| V_const v : witem_value fr windows rows c (WConst v) v
| V_col n : witem_value fr windows rows c (WCol n) (snd c n)
| V_calc e : witem_value fr windows rows c (WCalc e) (value (snd c) e)
| V_win k w v : window_of windows k = Some w -> call_value fr rows c w (w_fun k) v -> witem_value fr windows rows c (WWin k) v
| V_expr e holes vs :
    Forall2 (fun h v => fst v = fst h /\ exists w, window_of windows (snd h) = Some w /\ call_value fr rows c w (w_fun (snd h)) (snd v)) holes vs ->
    witem_value fr windows rows c (WExpr e holes) (value (fun n => match assoc n vs with Some v => v | None => snd c n end) e).
End Spec.

Definition wholes (i : witem) : list (text * wcall) := match i with WExpr _ holes => holes | _ => [] end.
Definition wcalls (i : witem) : list wcall := match i with WWin c => [c] | WExpr _ holes => map snd holes | _ => [] end.
Definition hidden (items : list (text * witem)) : list text := flat_map (fun ai => map fst (wholes (snd ai))) items.

(** ** The queries for which the claim is made *)
(** A column of PARTITION BY or ORDER BY without table name, when it is also the name of an item, names the column shown by that item. *)
Definition plain_wkey (items : list (text * witem)) (k : group_item) : Prop :=
  match k with
  | KeyCol true _ => True
  | KeyCol false n => (forall i, In (n, i) items -> i = WCol n) /\ ~ In n (hidden items)
  | KeyExp e => exact e /\ forall n, cast_column e = Some n -> ~ In n (map fst items) /\ ~ In n (hidden items)
  end.
(** The window exists, no frame is written, a named window is not extended, and the function is an aggregate or one of the functions [known]. *)
Definition plain_call (known : text -> bool) (q : wquery) (c : wcall) : Prop :=
  (exists w, window_of (wq_windows q) c = Some w /\ w_frame w = None /\
     Forall (plain_wkey (wq_items q)) (w_partition w) /\ Forall (fun k => plain_wkey (wq_items q) (fst k)) (w_order w)) /\
  (w_name c <> None -> w_inline c = mkwindow [] [] None) /\
  match w_fun c with
  | WAgg a => plain_aggregate a
  | WNamed name distinct args => known name = true /\ distinct = false /\ Forall exact args
  end.
(** An expression around window functions may use, beside these, only columns which are items under their own name. *)
Definition plain_witem (known : text -> bool) (q : wquery) (i : witem) : Prop :=
  Forall (plain_call known q) (wcalls i) /\
  match i with
  | WConst _ | WCol _ | WWin _ => True
  | WCalc e => exact e
  | WExpr e holes => exact e /\ (forall n, mentions n e -> In n (map fst holes) \/ In (n, WCol n) (wq_items q))
  end.
Definition plain_wquery (known : text -> bool) (q : wquery) : Prop :=
  NoDup (map fst (wq_windows q)) /\ NoDup (map fst (wq_items q) ++ hidden (wq_items q)) /\
  Forall (fun ai => plain_witem known q (snd ai)) (wq_items q).

(** What a SELECT statement over one table with window functions returns, independent of the compiler. *)
From Coq Require Import SpecFloat Permutation Sorting.Sorted.
From Verif Require Import Base PyVal Expr_Syntax Expr_Spec Having_Spec Agg_Spec Group_Syntax Group_Spec Select_Spec Where_Spec Cast_Syntax Cast_Spec Whole_Spec
  Winq_Syntax Winq_Spec Winsel_Syntax.

Section Meaning.
Variable tt : text -> bool.                            (* a text used as a condition *)
Variable fn : text -> list val -> val.                 (* the SQL functions and operators *)
Variable str_of : val -> text.
Variable leK : val -> val -> bool.                     (* the order of values *)
Variable same : list val -> list val -> bool.          (* equality of PARTITION BY keys *)
Variable wfn : text -> list (list val * list val) -> nat -> val.   (* the window functions which are no aggregates *)
Variable fr : frame_rows.                              (* the rows over which an aggregate with ORDER BY is taken *)
Let value := sem tt fn.

(** The row [o] of the result shows the items of the row [c] of [rows]: every item once, under its name, its window functions computed over [rows];
    the columns in the order [columns]. *)
Definition shows_row (q : wquery) (columns : list (text * witem)) (rows : list (text -> val)) (c : irow) (o : list (text * val)) : Prop :=
  Forall2 (fun ai nv => fst nv = fst ai /\ witem_value str_of value same leK wfn fr (wq_windows q) rows c (snd ai) (snd nv)) columns o.
(** A name in ORDER BY is the item of that name, or a column of the table. *)
Definition pair_value (q : wquery) (n : text) (p : (text -> val) * list (text * val)) : val :=
  if existsb (text_eqb n) (map fst (wq_items q)) then column (snd p) n else fst p n.

(** The rows on which WHERE is TRUE, in some arrangement [rows]; each with its items, computed over all of [rows]; of these the ones on which HAVING
    is TRUE, sorted by ORDER BY; of these the page of LIMIT and OFFSET. *)
Definition windowed_result (st : wstatement) (table : list (text -> val)) (out : list (list (text * val))) : Prop :=
  let q := ws_query st in
  exists rows columns outs sorted,
    Permutation (filter (holds tt fn (ws_where st)) table) rows /\
    Permutation (wq_items q) columns /\ Forall2 (shows_row q columns rows) (numbered rows) outs /\
    let pairs := filter (fun p => holds tt fn (ws_having st) (column (snd p))) (combine rows outs) in
    Permutation pairs sorted /\
    StronglySorted (fun x y => lex_le leK (map (fun nd => (pair_value q (fst nd), snd nd)) (ws_order st)) x y = true) sorted /\
    (ws_order st = [] -> rows = filter (holds tt fn (ws_where st)) table /\ sorted = pairs) /\
    out = paged (ws_limit st) (ws_offset st) (map snd sorted).

(** ** The statements for which the claim is made *)
(** The name [n] is used as a column in a window function. *)
Definition call_uses (windows : list (text * window)) (c : wcall) (n : text) : Prop :=
  (exists w k e, window_of windows c = Some w /\ In k (w_partition w ++ map fst (w_order w)) /\ k = KeyExp e /\ mentions n e) \/
  (exists a e, w_fun c = WAgg a /\ a_arg a = Some e /\ mentions n e) \/
  (exists f d args e, w_fun c = WNamed f d args /\ In e args /\ mentions n e).
Definition item_uses (windows : list (text * window)) (i : witem) (n : text) : Prop :=
  (exists c, In c (wcalls i) /\ call_uses windows c n) \/
  match i with
  | WCol m => m = n
  | WCalc e => mentions n e
  | WExpr e holes => mentions n e /\ ~ In n (map fst holes)
  | _ => False
  end.
(** The name [n] is used as a column: in an item, in WHERE, inside a calculation of HAVING. *)
Definition wused (st : wstatement) (n : text) : Prop :=
  (exists m i, In (m, i) (wq_items (ws_query st)) /\ item_uses (wq_windows (ws_query st)) i n) \/
  (exists e, ws_where st = Some e /\ mentions n e) \/
  (exists e x, ws_having st = Some e /\ operand_in x e /\ x <> ECol n /\ mentions n x).
(** An item other than an expression around window functions. *)
Definition direct (i : witem) : Prop := match i with WExpr _ _ => False | _ => True end.

(** At least one item is, or contains, a window function; HAVING names only direct items; the names in ORDER BY are all direct items, each either a column
    under its own name, a window function, or under a name not used otherwise; or they are all columns of the table. *)
Definition windowed_statement (known : text -> bool) (st : wstatement) : Prop :=
  let q := ws_query st in
  plain_wquery known q /\
  (exists n i, In (n, i) (wq_items q) /\ wcalls i <> []) /\
  plain_where tt fn (ws_where st) /\
  (forall e, ws_having st = Some e -> hcond e /\ forall n, mentions n e -> exists i, In (n, i) (wq_items q) /\ direct i) /\
  plain_limit (ws_limit st) /\
  (Forall (fun nd => exists i, In (fst nd, i) (wq_items q) /\ direct i /\
     (i = WCol (fst nd) \/ (exists c, i = WWin c) \/ ~ wused st (fst nd))) (ws_order st) \/
   Forall (fun nd => (forall i, In (fst nd, i) (wq_items q) -> i = WCol (fst nd)) /\ ~ In (fst nd) (hidden (wq_items q))) (ws_order st)).
End Meaning.

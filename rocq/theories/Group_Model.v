(** Model of the compilation of aggregate columns: compiler.py:435-514 (the loop over the select list), 1172-1241
    compile_aggregate_column, 1243-1281 compile_aggregate_key, 1283-1314 compile_aggregate_value, 1316-1347
    compile_aggregate_calculate, and of the execution of such a query: taskers/query.py:123-140, 296-337, 339-366.

    Not modelled: joins, window functions, aggregates with several arguments and the array aggregates.
    Trusted reading of the external package ([run_query]): all aggregate columns having the same group key, the rows
    are grouped by the value of the key (Python ==) in order of first appearance; the state of an aggregate column is threaded
    through the rows of its group, starting from None; the other columns are those of one row of the group ([pick]);
    if some column has a final value, a second task reads the rows so computed, evaluates the final values on them and copies
    the other columns. *)
From Coq Require Import SpecFloat.
From Verif Require Import Base PyVal Utils_Model Calc_Model Agg_Model Expr_Syntax Expr_Model Group_Syntax Cast_Syntax.
Open Scope Z_scope.

(** A component of the group key: a column, or the column of an aggregate already compiled. *)
Inductive key := KCol (q : valuer) | KNested (name : text).

Inductive calculater := CCount | CDistinctCount | CSum | CMin | CMax | CAvg | CConcat.
(** compiler.py:1197-1211 and 1213-1234: the aggregate column.  [c_parts]: for each aggregate the name of its state, its calculater and
    the column of its values; [c_final]: None, or the column computed from the states ([FPart]: the final value of the only state;
    [FExpr q]: the compiled expression). *)
Inductive final := FPart | FExpr (q : valuer).
Record acol := mkacol { c_keys : list key; c_parts : list (text * (calculater * valuer)); c_final : option final }.
Inductive gcol := GPlain (q : valuer) | GAggr.
(** config["schema"], config["aggregate"]["schema"] and ["key"]. *)
Record config := mkconfig { g_schema : list (text * gcol); g_agg : list (text * acol); g_key : list key }.

Section Group.
Variable frepr : spec_float -> text.
Variable ident : val -> val -> bool.
Variable ext : text -> option (list val -> val).
Variable lib : text -> list val -> val.
Notation compile := (compile frepr ident ext).
Notation ev := (ev frepr ident ext lib).

(** compiler.py:1243-1281. *)
Definition compile_key (schema : list (text * gcol)) (k : group_item) : key :=
  match k with
  | KeyCol qualified n =>
    if qualified then KCol (QCol n)
    else match assoc n schema with
         | Some (GPlain q) => KCol q
         | Some GAggr => KNested n
         | None => KCol (QCol n)
         end
  | KeyExp e =>
    match cast_column e with                           (* is_column: CAST of a column, compiler.py:2854-2866 *)
    | Some n => match assoc n schema with
                | Some (GPlain q) => KCol q
                | Some GAggr => KNested n
                | None => KCol (compile e)
                end
    | None => KCol (compile e)
    end
  end.
Definition compile_keys (schema : list (text * gcol)) (group : list group_item) : list key :=
  match group with
  | [] => [KCol (QConst (VStr (t "__k_g__")))]
  | _ => map (compile_key schema) group
  end.

(** compiler.py:1316-1347; 1184-1190: DISTINCT only with COUNT. *)
Definition calculater_of (a : aggregate) : res calculater :=
  match a_fun a, a_distinct a with
  | FCount, true => Ok CDistinctCount
  | FCount, false => Ok CCount
  | FSum, false => Ok CSum
  | FMin, false => Ok CMin
  | FMax, false => Ok CMax
  | FAvg, false => Ok CAvg
  | FGroupConcat, false => Ok CConcat
  | _, true => Err CompileError
  end.
(** The third component of compile_aggregate_calculate: is there a final value? *)
Definition has_final (c : calculater) : bool :=
  match c with CDistinctCount | CAvg | CConcat => true | _ => false end.
(** compiler.py:1283-1295. *)
Definition compile_value (a : aggregate) : valuer :=
  match a_arg a with None => QConst (VInt 0) | Some e => compile e end.
Definition compile_part (na : text * aggregate) : res (text * (calculater * valuer)) :=
  do c <- calculater_of (snd na); Ok (fst na, (c, compile_value (snd na))).
Fixpoint compile_parts (l : list (text * aggregate)) : res (list (text * (calculater * valuer))) :=
  match l with
  | [] => Ok []
  | x :: r => do p <- compile_part x; do ps <- compile_parts r; Ok (p :: ps)
  end.

(** compiler.py:1172-1241. *)
Definition compile_aggregate_column (group : list group_item) (cfg : config) (alias : text)
  (parts : list (text * aggregate)) (e : option expr) : res config :=
  let keys := compile_keys (g_schema cfg) group in
  do ps <- compile_parts parts;
  let fin := match e with
             | Some e => Some (FExpr (compile e))
             | None => if existsb (fun p => has_final (fst (snd p))) ps then Some FPart else None
             end in
  Ok (mkconfig (dict_set alias GAggr (g_schema cfg)) (dict_set alias (mkacol keys ps fin) (g_agg cfg)) keys).

(** compiler.py:435-514: one item of the select list. *)
Definition compile_item (group : list group_item) (cfg : config) (alias : text) (i : item) : res config :=
  let plain q := Ok (mkconfig (dict_set alias (GPlain q) (g_schema cfg)) (g_agg cfg) (g_key cfg)) in
  match i with
  | IConst v => plain (QConst v)
  | ICol n => plain (QCol n)
  | ICalc e => plain (compile e)
  | IAgg a => compile_aggregate_column group cfg alias [([], a)] None
  | IExpr e holes => compile_aggregate_column group cfg alias holes (Some e)
  end.
Fixpoint compile_items (group : list group_item) (cfg : config) (l : list (text * item)) : res config :=
  match l with
  | [] => Ok cfg
  | (alias, i) :: r => do cfg <- compile_item group cfg alias i; compile_items group cfg r
  end.
Definition compile_query (q : query) : res config := compile_items (q_group q) (mkconfig [] [] []) (q_items q).

(** ** Execution *)
Variable str_of : val -> text.

Inductive state := SVal (v : val) | SSet (s : option (list val)) | SAvg (s : avg_state) | SList (s : option (list text)).
Definition init (c : calculater) : state :=
  match c with CDistinctCount => SSet None | CAvg => SAvg None | CConcat => SList None | _ => SVal VNone end.
Definition step (c : calculater) (s : state) (v : val) : res state :=
  match c, s with
  | CCount, SVal x => do y <- count_agg x v; Ok (SVal y)
  | CSum, SVal x => do y <- sum_agg x v; Ok (SVal y)
  | CMin, SVal x => do y <- min_agg str_of x v; Ok (SVal y)
  | CMax, SVal x => do y <- max_agg str_of x v; Ok (SVal y)
  | CDistinctCount, SSet x => do y <- set_agg x v; Ok (SSet y)
  | CAvg, SAvg x => do y <- avg_agg x v; Ok (SAvg y)
  | CConcat, SList x => do y <- concat_agg str_of x v; Ok (SList y)
  | _, _ => Err TypeError
  end.
(** The ::final_value methods; the state itself when there is none. *)
Definition final_value (c : calculater) (s : state) : res val :=
  match c, s with
  | CDistinctCount, SSet x => Ok (VInt (dcount_final x))
  | CAvg, SAvg x => avg_final x
  | CConcat, SList x => Ok (VStr (concat_final x))
  | _, SVal v => Ok v
  | _, _ => Err TypeError
  end.

Definition row := text -> val.
Variable pick : list row -> row.                    (* the row of a group whose plain columns are shown *)
Variable nested : text -> row -> val.               (* the value of an aggregate column used as a group key *)
Variable raw : list (text * state) -> val.          (* the state of an aggregate column read as a column *)

Definition key_value (r : row) (k : key) : val := match k with KCol q => ev r q | KNested n => nested n r end.
(** aggregate_calculater.py:12-16 AggregateKeyCalculater: tuples compare item by item. *)
Fixpoint same_key (a b : list val) : bool :=
  match a, b with
  | [], [] => true
  | x :: a', y :: b' => pyeq x y && same_key a' b'
  | _, _ => false
  end.
(** The groups, in order of first appearance of their key. *)
Fixpoint add_row (k : list val) (r : row) (g : list (list val * list row)) : list (list val * list row) :=
  match g with
  | [] => [(k, [r])]
  | (k', rs) :: g' => if same_key k' k then (k', rs ++ [r]) :: g' else (k', rs) :: add_row k r g'
  end.
Definition groups (keys : list key) (rows : list row) : list (list val * list row) :=
  fold_left (fun g r => add_row (map (key_value r) keys) r g) rows [].

(** The states of an aggregate column over the rows of a group. *)
Fixpoint states (parts : list (text * (calculater * valuer))) (rs : list row) : res (list (text * state)) :=
  match parts with
  | [] => Ok []
  | (n, (c, q)) :: r =>
    do s <- run (step c) (init c) (map (fun x => ev x q) rs); do ss <- states r rs; Ok ((n, s) :: ss)
  end.
Fixpoint finals (parts : list (text * (calculater * valuer))) (ss : list (text * state)) : res (list (text * val)) :=
  match parts, ss with
  | (n, (c, _)) :: ps, (_, s) :: r => do v <- final_value c s; do vs <- finals ps r; Ok ((n, v) :: vs)
  | _, _ => Ok []
  end.

(** A row of the first task: the value of each plain column, the states of each aggregate column. *)
Inductive cell := CVal (v : val) | CStates (parts : list (text * (calculater * valuer))) (s : list (text * state)) (f : option final).
Fixpoint first_row (cfg : config) (schema : list (text * gcol)) (rs : list row) : res (list (text * cell)) :=
  match schema with
  | [] => Ok []
  | (n, GPlain q) :: r => do cs <- first_row cfg r rs; Ok ((n, CVal (ev (pick rs) q)) :: cs)
  | (n, GAggr) :: r =>
    match assoc n (g_agg cfg) with
    | None => Err KeyError
    | Some a => do s <- states (c_parts a) rs; do cs <- first_row cfg r rs; Ok ((n, CStates (c_parts a) s (c_final a)) :: cs)
    end
  end.
(** Reading "$.n" in the second task. *)
Definition cell_row (cells : list (text * cell)) (n : text) : val :=
  match assoc n cells with Some (CVal v) => v | Some (CStates _ s _) => raw s | None => VNone end.
(** The value of a column in the second task (query.py:339-366): its final value, else copied. *)
Definition second (cells : list (text * cell)) (c : cell) : res val :=
  match c with
  | CVal v => Ok v
  | CStates ps s None => match s with [(_, SVal v)] => Ok v | _ => Ok (raw s) end
  | CStates ps s (Some FPart) => match ps, s with [(_, (c, _))], [(_, x)] => final_value c x | _, _ => Ok (raw s) end
  | CStates ps s (Some (FExpr q)) =>
    do vs <- finals ps s; Ok (ev (fun n => match assoc n vs with Some v => v | None => cell_row cells n end) q)
  end.
Fixpoint second_row (cells l : list (text * cell)) : res (list (text * val)) :=
  match l with
  | [] => Ok []
  | (n, c) :: r => do v <- second cells c; do vs <- second_row cells r; Ok ((n, v) :: vs)
  end.
Definition out_row (cfg : config) (rs : list row) : res (list (text * val)) :=
  do cells <- first_row cfg (g_schema cfg) rs; second_row cells cells.
Fixpoint mapm {A B} (f : A -> res B) (l : list A) : res (list B) :=
  match l with [] => Ok [] | x :: r => do y <- f x; do ys <- mapm f r; Ok (y :: ys) end.

(** All aggregate columns have the key of the last one. *)
Definition one_key (cfg : config) : Prop := Forall (fun a => c_keys (snd a) = g_key cfg) (g_agg cfg).
(** Execution, when there are aggregate columns and [one_key] holds. *)
Definition run_query (cfg : config) (rows : list row) : res (list (list (text * val))) :=
  mapm (fun g => out_row cfg (snd g)) (groups (g_key cfg) rows).
End Group.

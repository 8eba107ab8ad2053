(** Model of the last part of the SELECT compiler: ORDER BY (compiler.py:1933-1977 compile_order), LIMIT and OFFSET
    (531-550), GROUP BY without aggregate columns and DISTINCT (552-567), and of the split into two tasks when
    aggregate columns have a final value (taskers/query.py:123-140, 296-337, 339-366).

    Rows of the source ([Row]) and of the result ([Out]) are abstract. Trusted reading of the external package ([run_task]):
    a task sorts the rows of its source by config["orders"] and takes the first @limit of them (all when it is 0), keeps those
    satisfying the predicate, computes the output rows, keeps those satisfying the intercept and applies the
    pipelines in order; both sorts are stable and sort by several keys, each ascending or descending.
    The session variable @limit is taken to be unset, and the conditions pushed to the source (Where_Model) are part
    of the source rows. *)
From Verif Require Import Base.
Local Open Scope Z_scope.

Section Select.
Variables Row Out K : Type.
Variable leK : K -> K -> bool.                    (* the order of column values *)
Variable src_field : text -> Row -> K.            (* a column of the source row *)
Variable out_field : text -> Out -> K.            (* a column of the output row *)
Variable out : Row -> Out.                        (* the select list, without aggregates and windows *)
Variable aggregated : list Row -> list Out.       (* the select list, with aggregates or windows *)
Variable grouped : list Row -> list Out.          (* one row per group, no aggregates (compile_group_column) *)
Variable distinct : list Row -> list Out.         (* one row per combination of values (compile_distinct_column) *)

(** An item of ORDER BY: a column, with the table name written before it ([] when there is none), or another expression,
    with its SQL text and its lower-case SQL text. *)
Inductive order_item := OCol (table name : text) (desc : bool) | OExp (sql lower_sql : text) (desc : bool).

Record select := mkselect {
  s_schema : option (list text);                  (* names of the select list; None: select * ("$.*") *)
  s_aggregate : option (list text * list text);   (* config["aggregate"], when present: names in "schema", in "window_schema" *)
  s_columns : list text;                          (* primary_table["columns"] *)
  s_table : text;                                 (* primary_table["table_name"] *)
  s_alias : option text;                          (* primary_table["table_alias"] *)
  s_select_columns : list (text * text);          (* primary_table["select_columns"]: alias, lower-case SQL text *)
  s_predicate : option (Row -> bool);
  s_having : option (Out -> bool);
  s_group : bool;
  s_distinct : bool;
  s_order : list order_item;
  s_limit : option Z;
  s_offset : option Z }.

Definition memb (k : text) (l : list text) : bool := existsb (text_eqb k) l.
Definition has_alias (q : select) : bool := match s_alias q with None | Some [] => false | _ => true end.

(** compiler.py:1953-1967: is a column sorted by the source? *)
Definition pushed (q : select) (table name : text) : bool :=
  match s_schema q with
  | None => true
  | Some schema =>
    if match table with [] => false | _ => text_eqb (s_table q) table end then true
    else match table with
         | _ :: _ => false
         | [] =>
           if match s_aggregate q with None => true | Some (a, w) => negb (memb name a) && negb (memb name w) end
           then if has_alias q then memb name (s_columns q) && negb (memb name schema)
                else memb name (s_columns q) || negb (memb name schema)
           else false
         end
  end.
(** compiler.py:1936-1968: the sort key of one item and whether it is pushed. *)
Definition order_key (q : select) (it : order_item) : res (text * bool * bool) :=
  match it with
  | OCol table name desc => Ok (name, desc, pushed q table name)
  | OExp sql lsql desc =>
    match s_schema q with
    | None => Err CompileError
    | Some schema =>
      if memb sql schema then Ok (sql, desc, false)
      else match find (fun c => text_eqb (snd c) lsql) (s_select_columns q) with
           | Some (alias, _) => Ok (alias, desc, false)
           | None => Err CompileError
           end
    end
  end.
Fixpoint order_keys (q : select) (l : list order_item) : res (list (text * bool * bool)) :=
  match l with
  | [] => Ok []
  | it :: r => do k <- order_key q it; do ks <- order_keys q r; Ok (k :: ks)
  end.

Inductive pipeline := PSort (keys : list (text * bool)) | PSlice (from : Z) (upto : option Z).

(** compiler.py:1933-1977: config["orders"] and the sort pipeline. *)
Definition compile_order (q : select) : res (list (text * bool) * list pipeline) :=
  do ks <- order_keys q (s_order q);
  let primary := map fst (filter snd ks) in
  let keys := map fst ks in
  if (length primary <? length keys)%nat then
    match s_schema q with
    | Some schema => if forallb (fun k => memb (fst k) schema) keys then Ok (primary, [PSort keys]) else Err CompileError
    | None => Ok (primary, [PSort keys])
    end
  else Ok (primary, []).

Definition is_nil {A} (l : list A) : bool := match l with [] => true | _ => false end.
Definition is_some {A} (o : option A) : bool := match o with Some _ => true | None => false end.
Definition has_aggregates (q : select) : bool := match s_aggregate q with Some (_ :: _, _) => true | _ => false end.
Definition has_windows (q : select) : bool := match s_aggregate q with Some (_, _ :: _) => true | _ => false end.

(** compiler.py:536-550: the slice pipeline and @limit. *)
Definition compile_limit (q : select) (pipelines : list pipeline) : list pipeline * Z :=
  let offset := match s_offset q with Some o => Z.max o 0 | None => 0 end in
  let limit := match s_limit q with Some n => n | None => 0 end in
  if negb (limit =? 0) || (0 <? offset) then
    if is_some (s_predicate q) || is_some (s_having q) || has_aggregates q || has_windows q || negb (is_nil pipelines) || (limit <=? 0) then
      (pipelines ++ [PSlice offset (if limit =? 0 then None else Some (if 0 <? limit then offset + limit else limit))], 0)
    else ((if 0 <? offset then pipelines ++ [PSlice offset None] else pipelines), offset + limit)
  else (pipelines, 0).

Inductive kind := KPlain | KComputed | KGrouped | KDistinct.
(** compiler.py:552-567. The branch for DISTINCT with GROUP BY (560-567) is never reached: the GROUP BY branch just before has filled
    config["aggregate"]["schema"]. *)
Definition select_kind (q : select) : res kind :=
  if has_aggregates q then Ok KComputed
  else if s_group q then match s_schema q with Some (_ :: _) => Ok KGrouped | _ => Err CompileError end
  else if s_distinct q then match s_schema q with Some (_ :: _) => Ok KDistinct | _ => Err CompileError end
  else if has_windows q then Ok KComputed else Ok KPlain.

Record task := mktask {
  t_predicate : option (Row -> bool);
  t_kind : kind;
  t_having : option (Out -> bool);
  t_orders : list (text * bool);
  t_limit : Z;
  t_pipelines : list pipeline }.

(** compiler.py:517-567. *)
Definition compile_select (q : select) : res task :=
  do op <- compile_order q;
  let (pipelines, limit) := compile_limit q (snd op) in
  do k <- select_kind q;
  Ok (mktask (s_predicate q) k (s_having q) (fst op) limit pipelines).

(** ** Execution (external package, see the header) *)

(** Lexicographic comparison by (column, descending) keys. *)
Fixpoint le_by {A} (field : text -> A -> K) (keys : list (text * bool)) (x y : A) : bool :=
  match keys with
  | [] => true
  | (k, desc) :: r =>
    let a := if desc : bool then field k y else field k x in
    let b := if desc then field k x else field k y in
    if leK a b then if leK b a then le_by field r x y else true else false
  end.
(** A stable sort (insertion). *)
Fixpoint insert {A} (le : A -> A -> bool) (x : A) (l : list A) : list A :=
  match l with
  | [] => [x]
  | y :: r => if le x y then x :: y :: r else y :: insert le x r
  end.
Definition sort {A} (le : A -> A -> bool) (l : list A) : list A := fold_right (insert le) [] l.

Definition keep {A} (p : option (A -> bool)) (l : list A) : list A := match p with Some f => filter f l | None => l end.
Definition take (n : Z) {A} (l : list A) : list A := if 0 <? n then firstn (Z.to_nat n) l else l.
Definition compute (k : kind) (l : list Row) : list Out :=
  match k with KPlain => map out l | KComputed => aggregated l | KGrouped => grouped l | KDistinct => distinct l end.
Definition apply_pipeline (l : list Out) (p : pipeline) : list Out :=
  match p with
  | PSort keys => sort (le_by out_field keys) l
  | PSlice a b => pyslice l (Some a) b
  end.
Definition run_task (t : task) (source : list Row) : list Out :=
  fold_left apply_pipeline (t_pipelines t)
    (keep (t_having t) (compute (t_kind t) (keep (t_predicate t) (take (t_limit t) (sort (le_by src_field (t_orders t)) source))))).
Definition run_select (q : select) (source : list Row) : res (list Out) :=
  do t <- compile_select q; Ok (run_task t source).

End Select.
Arguments mktask {Row Out}. Arguments t_predicate {Row Out}. Arguments t_kind {Row Out}. Arguments t_having {Row Out}.
Arguments t_orders {Row Out}. Arguments t_limit {Row Out}. Arguments t_pipelines {Row Out}.
Arguments mkselect {Row Out}.

(** ** taskers/query.py:123-140, 296-337, 339-366: with final values (or @batch) the task is split: the first one keeps
    predicate, orders and @limit and writes rows [Mid] to a temporary table; the last one computes the final values
    row by row and applies the intercept and the pipelines. *)
Definition split_task {Row Mid Out} (t : task Row Out) : task Row Mid * task Mid Out :=
  (mktask (t_predicate t) (t_kind t) None (t_orders t) (t_limit t) [], mktask None KPlain (t_having t) [] 0 (t_pipelines t)).

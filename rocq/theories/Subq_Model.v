(** Model of subqueries in expressions: compiler.py:2351-2497 (parse_subquery), 1014-1080 (compile_query_condition) and
    calculaters/query_tasker_calculater.py.

    The subquery is rewritten to one that also selects the columns compared with the outer query, run once for all outer rows with these columns
    restricted by IN, and its rows are matched with each outer row by these columns.  Trusted reading of the package: the loader of a join finds for an
    outer row the rows whose key columns are the same, in their order, and keeps those for which the condition given after it is true.

    Simplifications: the subquery computes one column (the first, the one that is read) and has no HAVING, ORDER BY, DISTINCT; no subquery inside its WHERE;
    the SQL of a column determines the column (generate_sql); outer columns are those of one row (for a join, of the joined row).  The names
    made for the added columns are replaced by their positions. *)
From Verif Require Import Base Reduce_Spec Subq_Syntax.

Section Model.
Variable V : Type.
Variable L : lang V.
(** Equality of the package on values: of join keys, of IN and of GROUP BY. *)
Variable same : V -> V -> bool.

Definition conv (ty : option text) (v : V) : V := match ty with Some ty => l_conv V L ty v | None => v end.
Definition mem (x : text) (l : list text) : bool := existsb (text_eqb x) l.
Definition opt_eqb (a b : option text) : bool :=
  match a, b with Some a, Some b => text_eqb a b | None, None => true | _, _ => false end.
Definition column_eqb (a b : column) : bool :=
  opt_eqb (c_table a) (c_table b) && text_eqb (c_name a) (c_name b) && opt_eqb (c_type a) (c_type b).

Section Tables.
(** current_tables and parent_tables, compiler.py:2361-2375. *)
Variables current parents : list text.
(** not table_name or table_name in current_tables *)
Definition inner_column (c : column) : bool := match c_table c with None => true | Some tb => mem tb current end.
(** compiler.py:2377-2382: columns of the outer query. *)
Definition parent_column (c : column) : bool :=
  match c_table c with None => false | Some tb => negb (mem tb current) && mem tb parents end.
(** parse_parent_calculate_condition, compiler.py:2377-2395. *)
Fixpoint parent_columns (e : expr V) : list column :=
  match e with
  | Col _ c => if parent_column c then [c] else []
  | Lit _ _ => []
  | App _ _ args => flat_map parent_columns args
  | And _ a b | Eq _ a b => parent_columns a ++ parent_columns b
  end.
(** parse_calculate_condition, compiler.py:2397-2425: the columns of the subquery in a condition, each once. *)
Definition add_select (c : column) (sels : list column) : list column := if existsb (column_eqb c) sels then sels else sels ++ [c].
Fixpoint select_columns (e : expr V) (sels : list column) : list column :=
  match e with
  | Col _ c => if inner_column c then add_select c sels else sels
  | Lit _ _ => sels
  | App _ _ args => fold_left (fun s x => select_columns x s) args sels
  | And _ a b | Eq _ a b => select_columns b (select_columns a sels)
  end.
(** compiler.py:2441-2453: which side of an equality of two columns is the subquery's. *)
Definition in_parents (c : column) : bool := match c_table c with None => false | Some tb => mem tb parents end.
Definition untyped (c : column) : bool := match c_type c with None => true | Some _ => false end.
Definition orient (l r : column) : option (column * column) :=
  if inner_column l && in_parents r && untyped l then Some (l, r)
  else if inner_column r && in_parents l && untyped r then Some (r, l)
  else None.

Record parsed := { p_keys : list (column * column); p_selects : list column; p_interceptors : list (expr V); p_kept : list (expr V) }.
(** compiler.py:2471-2477. *)
Definition other (e : expr V) (s : parsed) : parsed :=
  match parent_columns e with
  | [] => {| p_keys := p_keys s; p_selects := p_selects s; p_interceptors := p_interceptors s; p_kept := p_kept s ++ [e] |}
  | _ => {| p_keys := p_keys s; p_selects := select_columns e (p_selects s); p_interceptors := p_interceptors s ++ [e]; p_kept := p_kept s |}
  end.
(** parse_where_condition, compiler.py:2427-2477.  A pair of columns met for the second time is looked up as item 1 of a dictionary: KeyError (2458). *)
Fixpoint parse_where (e : expr V) (s : parsed) : res parsed :=
  match e with
  | And _ a b => match parse_where a s with Ok s => parse_where b s | Err x => Err x end
  | Eq _ (Col _ l) (Col _ r) =>
      match orient l r with
      | Some (c, p) =>
          if existsb (fun k => column_eqb (fst k) c && column_eqb (snd k) p) (p_keys s) then Err KeyError
          else Ok {| p_keys := p_keys s ++ [(c, p)]; p_selects := p_selects s; p_interceptors := p_interceptors s; p_kept := p_kept s |}
      | None => Ok (other e s)
      end
  | _ => Ok (other e s)
  end.
Definition nothing : parsed := {| p_keys := []; p_selects := []; p_interceptors := []; p_kept := [] |}.
Definition parse (w : option (expr V)) : res parsed := match w with None => Ok nothing | Some e => parse_where e nothing end.
End Tables.

(** *** Running the rewritten query *)
Definition column_of (r : row V) (c : column) : V := conv (c_type c) (r (c_table c) (c_name c)).
(** Columns of the rewritten query; a table that is not its own has no value. *)
Definition inner_look (current : list text) (r : row V) (c : column) : V :=
  if inner_column current c then column_of r c else l_null V L.
(** A row of the result: the value, the columns for the keys, the columns for the other conditions. *)
Record out := { o_value : V; o_keys : list V; o_selects : list V }.
Fixpoint same_list (a b : list V) : bool :=
  match a, b with [], [] => true | x :: a, y :: b => same x y && same_list a b | _, _ => false end.
Definition same_key (a b : list V * list V * list V) : bool :=
  same_list (fst (fst a)) (fst (fst b)) && same_list (snd (fst a)) (snd (fst b)) && same_list (snd a) (snd b).
Definition limit (n : option nat) {A} (l : list A) : list A := match n with Some n => firstn n l | None => l end.
(** compiler.py:2483-2525: SELECT item, keys, selects FROM ... WHERE kept AND key IN @outer values [GROUP BY keys, selects, group] [LIMIT n]. *)
Definition run_rewritten (q : query V) (p : parsed) (source : list (row V)) (outers : list (row V)) : list out :=
  let look := inner_look (q_tables V q) in
  let rows := filter (fun r => forallb (fun e => l_true V L (ev V L (look r) e)) (p_kept p)
                               && forallb (fun k => existsb (fun o => same (column_of r (fst k)) (column_of o (snd k))) outers) (p_keys p)) source in
  let ks r := map (fun k => column_of r (fst k)) (p_keys p) in
  let ss r := map (column_of r) (p_selects p) in
  limit (q_limit V q)
    (match q_kind V q with
     | Plain _ item => map (fun r => {| o_value := ev V L (look r) item; o_keys := ks r; o_selects := ss r |}) rows
     | Aggregate _ f group =>
         let keyed := map (fun r => ((ks r, ss r, map (ev V L (look r)) group), r)) rows in
         map (fun k => {| o_value := f (members same_key keyed k); o_keys := fst (fst k); o_selects := snd (fst k) |}) (keys same_key keyed)
     end).
(** compiler.py:2411 and 1036-1043: a condition on an outer row and a row of the result; columns of the subquery are read from the columns selected for them. *)
Fixpoint position (c : column) (l : list column) : nat := match l with [] => O | x :: r => if column_eqb c x then O else S (position c r) end.
Definition interceptor_look (current : list text) (p : parsed) (x : out) (o : row V) (c : column) : V :=
  if inner_column current c then nth (position c (p_selects p)) (o_selects x) (l_null V L) else column_of o c.
Definition matches (q : query V) (p : parsed) (o : row V) (x : out) : bool :=
  same_list (o_keys x) (map (fun k => column_of o (snd k)) (p_keys p))
  && forallb (fun e => l_true V L (ev V L (interceptor_look (q_tables V q) p x o) e)) (p_interceptors p).
(** compile_query_condition, compiler.py:1044-1080: the values found for one of the outer rows. *)
Definition subquery_values (q : query V) (parents : list text) (source outers : list (row V)) (o : row V) : res (list V) :=
  match parse (q_tables V q) parents (q_where V q) with
  | Err x => Err x
  | Ok p => Ok (map o_value (filter (matches q p o) (run_rewritten q p source outers)))
  end.
End Model.

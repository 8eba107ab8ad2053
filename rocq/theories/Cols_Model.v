(** Model of how a select list becomes the columns of the result: compiler.py:432-519 (the loop of compile_select),
    622-650 compile_select_star_column, 652-684 compile_select_column, 686-715 compile_select_calculate_column, and the
    effect of 1172-1241 compile_aggregate_column on the columns. Window functions are not modelled here.

    config["schema"] is a dict in insertion order, or the str "$.*"; what a column is computed from is kept as a [source],
    standing for the valuer that the (separately modelled) compilation of columns and expressions produces. *)
From Verif Require Import Base Agg_Model Str_Model Cols_Syntax.

Set Implicit Arguments.

Section Cols.
Variable E : Type.
(** generate_sql of an expression; parse_calculate: the columns an expression reads, with the table names written. *)
Variable sql : E -> text.
Variable uses : E -> list (option text * text).
(** str.isidentifier *)
Variable ident : text -> bool.

(** config["schema"], primary_table["loader_primary_keys"], ["outputer_primary_keys"], ["seted_primary_keys"] *)
Record state := { schema : columns E; lkeys : list text; okeys : list text; seted : bool }.
Definition start : state := {| schema := Listed []; lkeys := []; okeys := []; seted := false |}.

Definition put (n : text) (s : source E) (c : columns E) : res (columns E) :=
  match c with
  | Listed l => Ok (Listed (dict_set n s l))
  | Everything => Err TypeError     (* item assignment on the str "$.*" *)
  end.
(** [name in config["schema"]]: a key of the dict, or a substring of "$.*" *)
Definition in_schema (n : text) (c : columns E) : bool :=
  match c with
  | Listed l => match assoc n l with Some _ => true | None => false end
  | Everything => existsb (text_eqb n) [[]; t "$"; t "."; t "*"; t "$."; t ".*"; t "$.*"]
  end.

(** primary_table["table_name"], 401-417 and 2634 *)
Definition tname (f : from) : text := match f_alias f with Some a => a | None => f_origin f end.
Definition opt_eqb (a b : option text) : bool :=
  match a, b with Some x, Some y => text_eqb x y | None, None => true | _, _ => false end.
(** not table_name or table_name == primary_table["table_name"] *)
Definition of_primary (f : from) (q : option text) : bool :=
  match q with None => true | Some x => text_eqb x (tname f) end.
Definition known (f : from) (x : text) : bool := match assoc x (f_joins f) with Some _ => true | None => false end.

(** compiler.py:652-684; [q] is never the empty string *)
Definition select_column (f : from) (alias q : option text) (name : text) (pk : bool) (st : state) : res state :=
  let alias' := match alias with
                | Some a => a
                | None => let n := py_replace name [46%N] [95%N] in
                          match q with
                          | Some x => if in_schema n (schema st) then x ++ [46%N] ++ n else n
                          | None => n
                          end
                end in
  do c <- (if of_primary f q then put alias' (SCol (tname f) name) (schema st)
           else match q with
                | Some x => if known f x then put alias' (SCol x name) (schema st) else Err CompileError
                | None => Err CompileError
                end);
  let keep := Ok {| schema := c; lkeys := lkeys st; okeys := okeys st; seted := seted st |} in
  if negb (ident name) || negb (ident alias') then keep
  else if pk then
    let (lk, ok) := if seted st then (lkeys st, okeys st) else ([], []) in
    Ok {| schema := c; lkeys := lk ++ [name]; okeys := ok ++ [alias']; seted := true |}
  else if negb (seted st) && match lkeys st with [] => true | _ => false end then
    if of_primary f q then
      Ok {| schema := c; lkeys := [name]; okeys := match okeys st with [] => [alias'] | k => k end; seted := seted st |}
    else keep
  else keep.

(** compiler.py:636-650, the loop over the columns of the subquery; typing_options are empty *)
Fixpoint star_columns (f : from) (q : text) (names : list text) (st : state) : res state :=
  match names with
  | [] => Ok st
  | n :: r => if in_schema n (schema st) then star_columns f q r st
              else do st' <- select_column f (Some n) (Some q) n false st; star_columns f q r st'
  end.

(** compiler.py:622-635: None for [return False] *)
Definition star (f : from) (q : option text) (st : state) : res (option state) :=
  let (cols, q') := match q with
                    | None => (f_cols f, tname f)
                    | Some x => (if opt_eqb (Some x) (f_alias f) then f_cols f
                                 else match assoc x (f_joins f) with Some c => c | None => None end, x)
                    end in
  match cols with
  | None => Ok None
  | Some names => do st' <- star_columns f q' names st; Ok (Some st')
  end.

(** compiler.py:686-715 *)
Definition calculate_column (f : from) (alias : text) (e : E) (primary_key : bool) (st : state) : res state :=
  if negb (forallb (fun u => of_primary f (fst u) || match fst u with Some x => known f x | None => false end) (uses e))
  then Err CompileError
  else
    do c <- put alias (SExp e) (schema st);
    if primary_key && negb (seted st) && match okeys st with [] => true | _ => false end && ident alias then
      let lk := map snd (filter (fun u => ident (snd u) && of_primary f (fst u)) (uses e)) in
      Ok {| schema := c; lkeys := match lk with [] => lkeys st | _ => lk end; okeys := [alias]; seted := seted st |}
    else Ok {| schema := c; lkeys := lkeys st; okeys := okeys st; seted := seted st |}.

(** compiler.py:441-519, one turn of the loop *)
Definition select_item (f : from) (it : item E) (st : state) : res state :=
  match it with
  | IAll =>
    do o <- star f None st;
    match o with
    | Some st' => Ok st'
    | None => Ok {| schema := Everything; lkeys := lkeys st; okeys := okeys st; seted := seted st |}
    end
  | IAllOf q => do o <- star f (Some q) st; match o with Some st' => Ok st' | None => Err CompileError end
  | _ =>
    match schema st with
    | Everything => Err CompileError
    | Listed _ =>
      match it with
      | ICol alias q name pk => select_column f alias q name pk st
      | IExp alias k e =>
        let a := match alias with Some a => a | None => sql e end in
        match k with
        | KConst => do c <- put a (SExp e) (schema st);
                    Ok {| schema := c; lkeys := lkeys st; okeys := okeys st; seted := seted st |}
        | KCalc => calculate_column f a e true st
        | KAgg => calculate_column f a e false st
        end
      | _ => Err OtherError
      end
    end
  end.

Fixpoint select_items (f : from) (its : list (item E)) (st : state) : res state :=
  match its with
  | [] => Ok st
  | it :: r => do st' <- select_item f it st; select_items f r st'
  end.

(** compiler.py:437-440 (an empty select list is an error), 441-519, and 568-580: the keys written into config["input"] and
    config["output"]; [from_given]: there is a FROM clause. *)
Record compiled := { c_columns : columns E; c_input_key : list text; c_output_key : list text }.
Definition select (from_given : bool) (f : from) (its : list (item E)) : res compiled :=
  match its with
  | [] => Err CompileError
  | _ =>
    do st <- select_items f its start;
    let ok := match okeys st, schema st with
              | [], Listed l => if from_given then [] else firstn 1 (filter ident (map fst l))
              | k, _ => k
              end in
    let dflt k := match k with [] => [t "id"] | _ => k end in
    Ok {| c_columns := schema st; c_input_key := dflt (lkeys st); c_output_key := dflt ok |}
  end.
End Cols.

(** Model of SELECT ... INTO @a, @b: syncanysql/taskers/into.py:11-68 IntoTasker.start / run, from the rows the query stored
    in its temporary table to the executor's own variables. *)
From Verif Require Import Base Agg_Model.

Section Into.
(** Cell values. Simplification: a cell that is itself a dict or a list (JSON) is not distinguished from other cells. *)
Variable V : Type.
Variable null : V.
Variable is_null : V -> bool.

Definition row := list (text * V).
(** A variable's value after SELECT ... INTO. *)
Inductive value := Cell (v : V) | Cells (l : list V) | Row (r : row) | Rows (l : list row).
Definition vars := list (text * value).

(** d.get(k) *)
Definition field (r : row) (k : text) : V := match assoc k r with Some v => v | None => null end.
Definition project (keys : list text) (r : row) : row := map (fun k => (k, field r k)) keys.
(** {key: ... for key in keys}: keys of a schema are distinct. *)

(** into.py:11-15 start. *)
Fixpoint init_vars (names : list text) (env : vars) : vars :=
  match names with
  | [] => env
  | n :: r => init_vars r (match assoc n env with Some _ => env | None => dict_set n (Cell null) env end)
  end.

(** into.py:34-49: the value selected. [None] for the schema: the query selects everything ( * ). *)
Definition selected (schema : option (list text)) (nvars : nat) (datas : list row) : value :=
  match schema with
  | None | Some [] =>
    match datas with
    | [r] => if (nvars =? 1)%nat then match r with [(_, v)] => Cell v | _ => Row r end else Row r
    | _ => Rows datas
    end
  | Some [k] =>
    match datas with
    | [r] => Cell (field r k)
    | _ => Cells (concat (map (fun r => match assoc k r with Some v => [v] | None => [] end) datas))
    end
  | Some keys =>
    match datas with
    | [r] => Row (project keys r)
    | _ => Rows (map (project keys) datas)
    end
  end.
Definition set_null_if_known (n : text) (env : vars) : vars :=
  match assoc n env with Some _ => dict_set n (Cell null) env | None => env end.

(** [v[k] for v in l] *)
Fixpoint all_fields (l : list row) (k : text) : option (list V) :=
  match l with
  | [] => Some []
  | r :: l => match assoc k r, all_fields l k with Some x, Some xs => Some (x :: xs) | _, _ => None end
  end.
(** into.py:57-68: the loop over the variables from position [i]. *)
Fixpoint assign (keys : list text) (v : value) (names : list text) (env : vars) : res vars :=
  match names with
  | [] => Ok env
  | n :: names =>
    match keys with
    | [] => assign [] v names (set_null_if_known n env)
    | k :: keys =>
      match v with
      | Row r => match assoc k r with
                 | Some x => assign keys v names (dict_set n (Cell x) env)
                 | None => Err KeyError
                 end
      | Rows l => match all_fields l k with
                  | Some xs => assign keys v names (dict_set n (Cells xs) env)
                  | None => Err KeyError
                  end
      | Cells [] => assign keys v names (dict_set n (Cells []) env)
      | Cells _ => Err TypeError       (* v["k"] of a scalar *)
      | Cell _ => Err TypeError        (* iterating over a scalar *)
      end
    end
  end.
(** into.py:51-68 *)
Definition store (schema : option (list text)) (names : list text) (datas : list row) (env : vars) : res vars :=
  let v := selected schema (length names) datas in
  match names with
  | [n] => match v with
           | Cell x => if is_null x then Ok (set_null_if_known n env) else Ok (dict_set n v env)
           | _ => Ok (dict_set n v env)
           end
  | _ => match schema with
         | None => match names with [] => Ok env | _ => Err TypeError end   (* len(None) *)
         | Some keys => assign keys v names env
         end
  end.
(** The whole statement: start, then run. *)
Definition select_into (schema : option (list text)) (names : list text) (datas : list row) (env : vars) : res vars :=
  store schema names datas (init_vars names env).
End Into.
Arguments Cell {V}. Arguments Cells {V}. Arguments Row {V}. Arguments Rows {V}.

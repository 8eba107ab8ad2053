(** Model of INSERT (compiler.py:271-337 compile_insert_into), without the choice of the output table.

    External: [filt name v] is the package's type filter [name] applied to [v] ("$.column|name"); "$.column" of a row without that
    column is NULL. The values of the tuples are the results of parse_const (Literal_Model.v). *)
From Verif Require Import Base PyVal Agg_Model Utils_Model.

(** str.index / str.rindex of one character. *)
Fixpoint index_of (c : N) (s : text) : option nat :=
  match s with
  | [] => None
  | x :: r => if N.eqb x c then Some 0%nat else option_map S (index_of c r)
  end.
Definition rindex_of (c : N) (s : text) : option nat :=
  match index_of c (rev s) with None => None | Some i => Some (length s - 1 - i)%nat end.

(** compiler.py:281-291: name and type of a listed column (after the mapping of quoted names). *)
Definition insert_column (name : text) : text * option text :=
  match index_of 91 name, rindex_of 93 name with
  | Some a, Some b =>
    let inner := firstn (b - (a + 1)) (skipn (a + 1) name) in     (* name[a + 1: b] *)
    (firstn a name, Some (hd [] (split_on 59 inner)))
  | _, _ => (name, None)
  end.

(** compiler.py:323: str(type(value).__name__) of a number. *)
Definition number_type (v : val) : option text :=
  match v with
  | VBool _ => Some (t "bool")
  | VInt _ => Some (t "int")
  | VFloat _ => Some (t "float")
  | _ => None
  end.

(** compiler.py:319-325: one tuple; [columns] is updated in place. The result is the row and the updated columns. *)
Fixpoint insert_tuple (i : nat) (values : list val) (columns : list (text * option text)) (data : list (text * val))
  : res (list (text * option text) * list (text * val)) :=
  match values with
  | [] => Ok (columns, data)
  | v :: r =>
    match nth_error columns i with
    | None => Err IndexError
    | Some (n, ty) =>
      let ty' := match ty with None => number_type v | Some _ => ty end in
      insert_tuple (S i) r (firstn i columns ++ (n, ty') :: skipn (S i) columns) (dict_set n v data)
    end
  end.
Fixpoint insert_tuples (tuples : list (list val)) (columns : list (text * option text))
  : res (list (text * option text) * list (list (text * val))) :=
  match tuples with
  | [] => Ok (columns, [])
  | v :: r =>
    do cd <- insert_tuple 0 v columns [];
    do cr <- insert_tuples r (fst cd);
    Ok (fst cr, snd cd :: snd cr)
  end.

Section Filters.
Variable filt : text -> val -> val.

Definition apply_type (ty : option text) (v : val) : val :=
  match ty with None | Some [] => v | Some f => filt f v end.
(** compiler.py:327-331: the rows written. *)
Definition insert_values (columns : list (text * option text)) (tuples : list (list val)) : res (list (list (text * val))) :=
  do cd <- insert_tuples tuples columns;
  match fst cd with
  | [] => Err IndexError                       (* columns[0][0] *)
  | cols =>
    let schema := fold_left (fun m c => dict_set (fst c) (snd c) m) cols [] in
    Ok (map (fun data => map (fun c => (fst c, apply_type (snd c) (match assoc (fst c) data with Some v => v | None => VNone end))) schema)
            (snd cd))
  end.

(** compiler.py:311-316, 317: the source is a query, with the rows it returns, or tuples. *)
Inductive source := Query (rows : list (list (text * val))) | Values (tuples : list (list val)).
Definition insert (names : list text) (s : source) : res (list (list (text * val))) :=
  let columns := map insert_column names in
  match s with
  | Query rows => Ok rows
  | Values [] => Err CompileError
  | Values tuples => insert_values columns tuples
  end.
End Filters.

(** Model of syncanysql/calculaters/mysql_funcs/json_funcs.py.
    A document is a tree: null, a scalar (bool, int, float), a string, an array, an object (association list
    in insertion order).  Simplifications: object keys are text; the documents are trees, i.e. the values
    inserted by JSON_SET share no list or dict with the document or with each other; str.isdigit is taken on
    ASCII digits only. *)
From Verif Require Import Base PyVal Utils_Model Agg_Model.
Open Scope nat_scope.

Inductive json :=
| JNull
| JScalar (v : val)
| JStr (s : text)
| JArr (l : list json)
| JObj (m : list (text * json)).

Inductive key := KName (k : text) | KIdx (n : nat).

(** str.index of one character *)
Fixpoint index_of (c : N) (s : text) : option nat :=
  match s with
  | [] => None
  | x :: r => if N.eqb x c then Some 0 else option_map S (index_of c r)
  end.
Definition is_dot (c : N) : bool := N.eqb c 46.
Definition isdigits (s : text) : bool := match s with [] => false | _ => forallb is_digit_ascii s end.
(** s[1:-1] *)
Definition unquote (s : text) : text := removelast (tl s).
(** json_funcs.py:34-39: the key between brackets *)
Definition bracket_key (k : text) : key :=
  if isdigits k then KIdx (match int_of_text k with Ok z => Z.to_nat z | Err _ => 0 end)
  else match k with
       | 34%N :: _ => if N.eqb (last k 0%N) 34 then KName (unquote k) else KName k
       | _ => KName k
       end.

(** json_funcs.py:12-54 parse_json_path, with the recursive calls counted down by [fuel]. *)
Fixpoint parse_fuel (fuel : nat) (p : text) : list key :=
  match fuel with
  | 0 => []
  | S f =>
    match p with
    | [] => []
    | _ =>
      let rest q := match q with [] => [] | _ => parse_fuel f q end in
      let dotted d := KName (firstn d p) :: rest (strip is_dot (skipn (d + 1) p)) in
      match index_of 91%N p with
      | None => match index_of 46%N p with
                | Some (S d) => dotted (S d)
                | _ => [KName p]
                end
      | Some st =>
        match index_of 46%N p with
        | Some (S d) => 
          if S d <? st then dotted (S d)
          else match index_of 93%N p with
               | None => dotted (S d)
               | Some en => (if 0 <? st then [KName (firstn st p)] else []) ++
                            (if st <? en then [bracket_key (firstn (en - (st + 1)) (skipn (st + 1) p))] else []) ++
                            rest (strip is_dot (skipn (en + 1) p))
               end
        | _ => match index_of 93%N p with
               | None => [KName p]
               | Some en => (if 0 <? st then [KName (firstn st p)] else []) ++
                            (if st <? en then [bracket_key (firstn (en - (st + 1)) (skipn (st + 1) p))] else []) ++
                            rest (strip is_dot (skipn (en + 1) p))
               end
        end
      end
    end
  end.
Definition parse_path (p : text) : list key := parse_fuel (S (length p)) p.
(** json_funcs.py:60-63 (= 97-100, 143-146): the leading "$." or "$". *)
Definition strip_root (p : text) : text :=
  match p with
  | 36%N :: 46%N :: r => r
  | 36%N :: r => r
  | _ => p
  end.
Definition path_keys (p : text) : list key := parse_path (strip_root p).

(** v is None *)
Definition jnone (v : json) : bool := match v with JNull => true | _ => false end.
Definition star : text := [42%N].

(** json_funcs.py:65-91 get_value. *)
Fixpoint get_value (d : json) (ks : list key) : json :=
  match ks with
  | [] => d
  | KIdx n :: rest =>
    match d with
    | JArr l => match nth_error l n with Some x => get_value x rest | None => JNull end
    | JStr s => match nth_error s n with Some c => get_value (JStr [c]) rest | None => JNull end
    | _ => JNull
    end
  | KName k :: rest =>
    if text_eqb k star
    then match rest with
         | [] => d
         | _ => JArr (filter (fun v => negb (jnone v))
                        (map (fun x => get_value x rest) (match d with JArr l => l | _ => [d] end)))
         end
    else match d with
         | JObj m => match assoc k m with Some x => get_value x rest | None => JNull end
         | _ => JNull
         end
  end.
(** json_funcs.py:57-92 get_json_path_value. *)
Definition get_path (d : json) (p : text) : res json :=
  if jnone d then Err ValueError else Ok (get_value d (path_keys p)).

(** l[n] = v for n < len(l) *)
Fixpoint list_set {A} (n : nat) (v : A) (l : list A) : list A :=
  match l, n with
  | [], _ => []
  | _ :: r, 0 => v :: r
  | a :: r, S n => a :: list_set n v r
  end.
Fixpoint list_del {A} (n : nat) (l : list A) : list A :=
  match l, n with
  | [], _ => []
  | _ :: r, 0 => r
  | a :: r, S n => a :: list_del n r
  end.

Section Set_.
Variable str_of : json -> text.        (* Python str() of the inserted value *)
Variable v : json.                     (* the value to set *)

(** json_funcs.py:102-134 set_value: the document after the call (assignments are in place; a step into a
    missing index, a string or a scalar goes on in a fresh list that is not part of the document). *)
Fixpoint set_in (d : json) (ks : list key) : json :=
  match ks with
  | [] => d
  | KIdx n :: rest =>
    match d with
    | JArr l =>
      match rest with
      | [] => if length l <=? n then JArr (l ++ [v]) else JArr (list_set n v l)
      | _ => match nth_error l n with Some x => JArr (list_set n (set_in x rest) l) | None => d end
      end
    | _ => d
    end
  | KName k :: rest =>
    match d with
    | JObj m =>
      match assoc k m with
      | None => match rest with [] => JObj (dict_set k v m) | _ => d end
      | Some x => match rest with [] => JObj (dict_set k v m) | _ => JObj (dict_set k (set_in x rest) m) end
      end
    | _ => d
    end
  end.
(** The value returned by set_value. *)
Fixpoint set_ret (d : json) (ks : list key) : json :=
  match ks with
  | [] => d
  | KIdx n :: rest =>
    match d with
    | JArr l =>
      match rest with
      | [] => if length l <=? n then JArr (l ++ [v]) else JArr (list_set n v l)
      | _ => set_ret (match nth_error l n with Some x => x | None => JArr [] end) rest
      end
    | JStr s =>
      match rest with
      | [] => if length s <=? n then JArr [JStr s; v] else JStr (firstn n s ++ str_of v ++ skipn (n + 1) s)
      | _ => set_ret (match nth_error s n with Some c => JStr [c] | None => JArr [] end) rest
      end
    | _ => set_ret (JArr []) rest
    end
  | KName k :: rest =>
    match d with
    | JObj m =>
      match assoc k m with
      | None => match rest with [] => JObj (dict_set k v m) | _ => d end
      | Some x => match rest with [] => JObj (dict_set k v m) | _ => set_ret x rest end
      end
    | _ => d
    end
  end.
Definition is_container (d : json) : bool := match d with JArr _ | JObj _ => true | _ => false end.
(** One path/value pair of json_funcs.py:251-255 (set_json_path_value raises on None). *)
Definition set_pair (d : json) (p : text) : res json :=
  if jnone d then Err ValueError
  else Ok (if is_container d then set_in d (path_keys p) else set_ret d (path_keys p)).
End Set_.

(** json_funcs.py:148-168 remove_value: the document after the call.  An index that is not the last step
    deletes the element and goes on in the same list. *)
Fixpoint remove_in (d : json) (ks : list key) : json :=
  match ks with
  | [] => d
  | KIdx n :: rest =>
    match d with
    | JArr l => remove_in (JArr (list_del n l)) rest
    | _ => remove_in d rest
    end
  | KName k :: rest =>
    match d with
    | JObj m =>
      match assoc k m with
      | None => d
      | Some x => match rest with
                  | [] => JObj (filter (fun e => negb (text_eqb k (fst e))) m)
                  | _ => JObj (dict_set k (remove_in x rest) m)
                  end
      end
    | _ => d
    end
  end.

Section Funcs.
Variable loads : text -> option json.  (* json.loads; None: it raises *)
Variable str_of : json -> text.
(** The first lines of every function: a string argument is decoded when it is JSON text. *)
Definition decode (d : json) : json :=
  match d with JStr s => match loads s with Some j => j | None => d end | _ => d end.

(** json_funcs.py:234-243 JSON_EXTRACT. *)
Fixpoint extract_all (d : json) (paths : list text) : res (list json) :=
  match paths with
  | [] => Ok []
  | p :: r => do x <- get_path d p; do xs <- extract_all d r; Ok (x :: xs)
  end.
Definition json_extract (d : json) (paths : list text) : res json :=
  do l <- extract_all (decode d) paths;
  match l with [x] => Ok x | _ => Ok (JArr l) end.
(** json_funcs.py:245-256 JSON_SET; an odd last argument is ignored. *)
Fixpoint set_pairs (d : json) (l : list (text * json)) : res json :=
  match l with
  | [] => Ok d
  | (p, v) :: r => do d' <- set_pair str_of v d p; set_pairs d' r
  end.
Definition json_set (d : json) (l : list (text * json)) : res json := set_pairs (decode d) l.
(** json_funcs.py:258-266 JSON_REMOVE. *)
Fixpoint remove_all (d : json) (l : list text) : res json :=
  match l with
  | [] => Ok d
  | p :: r => if jnone d then Err ValueError else remove_all (remove_in d (path_keys p)) r
  end.
Definition json_remove (d : json) (l : list text) : res json := remove_all (decode d) l.

(** json_funcs.py:215-231 JSON_CONTAINS_PATH; [one] is one_or_all.lower() == "one". *)
Fixpoint contains_loop (one : bool) (d : json) (paths : list text) : res Z :=
  match paths with
  | [] => Ok (if one then 0 else 1)%Z
  | p :: r => do x <- get_path d p;
              if one then if jnone x then contains_loop one d r else Ok 1%Z
              else if jnone x then Ok 0%Z else contains_loop one d r
  end.
Definition json_contains_path (d : json) (one : bool) (paths : list text) : res Z :=
  contains_loop one (decode d) paths.

(** json_funcs.py:275-283 get_depth. *)
Fixpoint get_depth (d : json) : nat :=
  match d with
  | JArr [] | JObj [] => 1
  | JArr l => fold_right Nat.max 0 (map get_depth l) + 1
  | JObj m => fold_right Nat.max 0 (map (fun e => get_depth (snd e)) m) + 1
  | _ => 1
  end.
Definition json_depth (d : json) : nat := get_depth (decode d).
(** json_funcs.py:286-297 JSON_KEYS, 300-311 JSON_LENGTH ([path] None: not given or empty). *)
Definition at_opt (d : json) (p : option text) : res json := match p with None => Ok d | Some p => get_path d p end.
Definition json_keys (d : json) (p : option text) : res (list text) :=
  do x <- at_opt (decode d) p; Ok (match x with JObj m => map fst m | _ => [] end).
Definition json_length (d : json) (p : option text) : res nat :=
  do x <- at_opt (decode d) p; Ok (match x with JObj m => length m | JArr l => length l | _ => 0 end).
End Funcs.
(** json_funcs.py:181-185 JSON_OBJECT. *)
Fixpoint json_object (acc : list (text * json)) (l : list (text * json)) : list (text * json) :=
  match l with
  | [] => acc
  | (k, v) :: r => json_object (dict_set k v acc) r
  end.

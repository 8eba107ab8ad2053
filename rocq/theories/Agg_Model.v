(** Model of syncanysql/calculaters/aggregate_calculater.py: the ::aggregate, ::reduce and ::final_value
    methods of every aggregate.  The state of a group starts as None and is threaded through the rows of
    the group by the (external) #aggregate operator.  The result-type filters (get_final_filter) belong to
    the external package and are not modelled. *)
From Coq Require Import SpecFloat.
From Verif Require Import Base PyVal Utils_Model Calc_Model.
Open Scope Z_scope.

(** The driver: fold a state through values. *)
Fixpoint run {S V} (step : S -> V -> res S) (st : S) (xs : list V) : res S :=
  match xs with
  | [] => Ok st
  | x :: r => do s <- step st x; run step s r
  end.

(** Python [x or 0]. *)
Definition or0 (x : val) : val := if truthy x then x else VInt 0.

(** aggregate_calculater.py:35-40 AggregateCalculater.reduce, inherited by COUNT and SUM: [state + data].
    Only numbers reach the + here. *)
Definition base_reduce (st d : val) : res val :=
  if is_none d then Ok st else if is_none st then Ok d else py_add st d.

(** Python int(x) of a modelled value. *)
Definition py_int (x : val) : res val :=
  match x with
  | VBool b => Ok (VInt (b2z b))
  | VInt z => Ok (VInt z)
  | VFloat f => do z <- Z_of_float f; Ok (VInt z)
  | VStr s => do z <- int_of_text s; Ok (VInt z)
  | _ => Err TypeError
  end.

(** aggregate_calculater.py:67-78 COUNT. *)
Definition count_agg (st d : val) : res val :=
  if is_none d then Ok (or0 st)
  else try_ (py_add st (VInt 1))
            (if is_none st then Ok (VInt 1)
             else try_ (do z <- py_int st; py_add z (VInt 1)) (Ok st)).

(** A Python set, as the list of its elements in insertion order, no two of them equal (==).
    Simplifications: the iteration order of the real set is not modelled (only membership and size are
    used in the theorems); nan elements are compared with == instead of object identity. *)
Definition set_mem (x : val) (s : list val) : bool := existsb (fun y => pyeq y x) s.
Definition set_add (s : list val) (x : val) : list val := if set_mem x s then s else s ++ [x].
Definition set_union (s1 s2 : list val) : list val := fold_left set_add s2 s1.

(** aggregate_calculater.py:84-107 COUNT DISTINCT aggregate (= 273-290 GROUP_UNIQ_ARRAY aggregate).
    The modelled values are all hashable, so the fallbacks for lists are not modelled. *)
Definition set_agg (st : option (list val)) (d : val) : res (option (list val)) :=
  if is_none d then Ok st
  else match st with None => Ok (Some [d]) | Some s => Ok (Some (set_add s d)) end.
(** aggregate_calculater.py:109-114 (= 292-297). *)
Definition set_reduce (st d : option (list val)) : res (option (list val)) :=
  match d with
  | None => Ok st
  | Some b => match st with None => Ok d | Some a => Ok (Some (set_union a b)) end
  end.
(** aggregate_calculater.py:116-119 COUNT DISTINCT final_value. *)
Definition dcount_final (st : option (list val)) : Z :=
  match st with None => 0 | Some s => Z.of_nat (length s) end.
(** aggregate_calculater.py:299-302 GROUP_UNIQ_ARRAY final_value. *)
Definition uniq_final (st : option (list val)) : list val := match st with None => [] | Some s => s end.

(** A value as a number: itself if it is one, else ensure_number (lines 128-130, 135-137, 192-195). *)
Definition agg_number (d : val) : res val := if is_number d then Ok d else ensure_number d.

(** aggregate_calculater.py:126-138 SUM. *)
Definition sum_agg (st d : val) : res val :=
  try_ (do y <- agg_number d; py_add st y)
       (if is_none d then Ok (or0 st)
        else if is_none st then agg_number d
        else Ok st).

(** Python max(a, b) / min(a, b). *)
Definition py_max2 (op : val -> val -> res bool) (a b : val) : res val := do c <- op b a; Ok (if c then b else a).

(** type(state)(data), lines 154, 176: [str_of] is Python str(). *)
Section Ext.
Variable str_of : val -> text.
Definition py_conv (st d : val) : res val :=
  match st with
  | VBool _ => Ok (VBool (truthy d))
  | VInt _ => py_int d
  | VFloat _ => match d with
                | VStr s => do f <- float_of_text s; Ok (VFloat f)
                | _ => do f <- as_float d; Ok (VFloat f)
                end
  | VStr _ => Ok (VStr (str_of d))
  | _ => Err TypeError
  end.
(** aggregate_calculater.py:145-156 MAX (op = >), 167-178 MIN (op = <): the bodies differ only in max/min. *)
Definition ext_agg (op : val -> val -> res bool) (st d : val) : res val :=
  try_ (py_max2 op st d)
       (if is_none d then Ok st
        else if is_none st then Ok d
        else try_ (do x <- py_conv st d; py_max2 op st x) (Ok st)).
(** aggregate_calculater.py:158-163, 180-185. *)
Definition ext_reduce (op : val -> val -> res bool) (st d : val) : res val :=
  if is_none d then Ok st else if is_none st then Ok d else py_max2 op st d.
Definition max_agg := ext_agg pygt.
Definition min_agg := ext_agg pylt.
Definition max_reduce := ext_reduce pygt.
Definition min_reduce := ext_reduce pylt.

(** aggregate_calculater.py:226-232 GROUP_CONCAT. *)
Definition concat_agg (st : option (list text)) (d : val) : res (option (list text)) :=
  if is_none d then Ok st
  else Ok (Some (match st with None => [str_of d] | Some l => l ++ [str_of d] end)).
End Ext.
(** list + list, lines 234-239, 256-261, 389-394. *)
Definition list_reduce {A} (st d : option (list A)) : res (option (list A)) :=
  match d with
  | None => Ok st
  | Some b => match st with None => Ok d | Some a => Ok (Some (a ++ b)) end
  end.
Fixpoint join_comma (l : list text) : text :=
  match l with
  | [] => []
  | [a] => a
  | a :: r => a ++ 44%N :: join_comma r
  end.
(** aggregate_calculater.py:241-244: [not None] and [not []] both give "". *)
Definition concat_final (st : option (list text)) : text :=
  match st with None => [] | Some l => join_comma l end.

(** aggregate_calculater.py:248-254 GROUP_ARRAY aggregate (= 381-387 JSON_ARRAYAGG). *)
Definition array_agg (st : option (list val)) (d : val) : res (option (list val)) :=
  if is_none d then Ok st
  else Ok (Some (match st with None => [d] | Some l => l ++ [d] end)).
(** aggregate_calculater.py:263-266. *)
Definition array_final (st : option (list val)) : list val := match st with None => [] | Some l => l end.

(** aggregate_calculater.py:189-206 AVG.  The state is a dict with count_value and sum_value, updated in
    place: the count is already incremented when the addition fails. *)
Definition avg_state := option (Z * val).
Definition avg_agg (st : avg_state) (d : val) : res avg_state :=
  match st with
  | Some (c, s) => match (do y <- agg_number d; py_add s y) with
                   | Ok s' => Ok (Some (c + 1, s'))
                   | Err _ => Ok (Some (c + 1, s))
                   end
  | None => if is_none d then Ok None else do y <- agg_number d; Ok (Some (1, y))
  end.
(** aggregate_calculater.py:208-214. *)
Definition avg_reduce (st d : avg_state) : res avg_state :=
  match d with
  | None => Ok st
  | Some (c', s') => match st with
                     | None => Ok d
                     | Some (c, s) => do x <- py_add s s'; Ok (Some (c + c', x))
                     end
  end.
(** aggregate_calculater.py:216-219. *)
Definition avg_final (st : avg_state) : res val :=
  match st with None => Ok (VInt 0) | Some (c, s) => py_div s (VInt c) end.

(** isinstance(x, int) *)
Definition is_int (x : val) : bool := match x with VBool _ | VInt _ => true | _ => false end.
(** aggregate_calculater.py:309-316 GROUP_BIT_AND, 330-337 GROUP_BIT_OR, 351-358 GROUP_BIT_XOR. *)
Definition bit_agg (op : val -> val -> res val) (st d : val) : res val :=
  if is_none d then Ok st
  else if is_none st then Ok d
  else if is_int d then op st d else do y <- ensure_int d; op st y.
(** aggregate_calculater.py:318-323, 339-344, 360-365. *)
Definition bit_reduce (op : val -> val -> res val) (st d : val) : res val :=
  if is_none d then Ok st else if is_none st then Ok d else op st d.

(** aggregate_calculater.py:415-427 JSON_OBJECTAGG aggregate for a two-element list [key, value]: the key
    is already formatted text; the dict is an association list. *)
Fixpoint dict_set {A} (k : text) (v : A) (m : list (text * A)) : list (text * A) :=
  match m with
  | [] => [(k, v)]
  | (k', v') :: r => if text_eqb k k' then (k', v) :: r else (k', v') :: dict_set k v r
  end.
Definition object_agg (st : option (list (text * val))) (d : option (text * val)) : res (option (list (text * val))) :=
  match d with
  | None => Ok st
  | Some (k, v) => Ok (Some (dict_set k v (match st with None => [] | Some m => m end)))
  end.
(** aggregate_calculater.py:429-434: [return state_value.update(data_value)] returns None. *)
Definition object_reduce (st d : option (list (text * val))) : res (option (list (text * val))) :=
  match d with
  | None => Ok st
  | Some _ => match st with None => Ok d | Some _ => Ok None end
  end.

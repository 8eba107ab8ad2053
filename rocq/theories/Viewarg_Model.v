(** Model of the queries of virtual views: syncanysql/config.py:20 VIRTUAL_VIEW_ARGS_RE and 117-129 parse_virtual_view_args. *)
From Verif Require Import Base PyVal Str_Model Interp_Model.

Section Viewarg.
Variable V : Type.
(** json.loads of a text; None when it raises (127-129); and a text as a value. *)
Variable json : text -> option V.
Variable of_text : text -> V.
(** The \w characters beyond ASCII (unicodedata). *)
Variable uword : N -> bool.
(** \w *)
Definition word (c : N) : bool :=
  (((48 <=? c) && (c <=? 57)) || ((65 <=? c) && (c <=? 90)) || ((97 <=? c) && (c <=? 122)) || (c =? 95) || ((128 <=? c) && uword c))%N.
(** The longest prefix of word characters, and the rest. *)
Fixpoint span_word (s : text) : text * text :=
  match s with
  | c :: r => if word c then let (a, b) := span_word r in (c :: a, b) else ([], s)
  | [] => ([], [])
  end.
(** After "#{": \w+?(:.*?)?\}, as in Interp_Model.match_var. *)
Definition match_arg (s : text) : option (text * text * text) :=
  match span_word s with
  | ([], _) => None
  | (name, 125%N :: r) => Some (name, [], r)
  | (name, 58%N :: r) => match until_close r with Some (d, r') => Some (name, 58%N :: d, r') | None => None end
  | _ => None
  end.
(** re.findall: the matches from left to right, not overlapping, as (name, group 2). *)
Fixpoint find_all (fuel : nat) (s : text) : list (text * text) :=
  match fuel with
  | O => []
  | S fuel =>
    match s with
    | [] => []
    | 35%N :: 123%N :: r => match match_arg r with
                            | Some (name, d, r') => (name, d) :: find_all fuel r'
                            | None => find_all fuel (123%N :: r)
                            end
    | _ :: r => find_all fuel r
    end
  end.
(** group 1 *)
Definition placeholder (x : text * text) : text := t "#{" ++ fst x ++ snd x ++ t "}".
(** config.py:119 *)
Definition exps : list (text * text) :=
  [(t "eq", t "=="); (t "neq", t "!="); (t "gt", t ">"); (t "gte", t ">="); (t "lt", t "<"); (t "lte", t "<="); (t "in", t "in")].
(** config.py:121-126: arg[2:-1].split(":")[0] is the name, which has no colon. *)
Definition argument (x : text * text) : res (text * text * V) :=
  let default := tl (snd x) in
  let v := match json default with Some j => j | None => of_text default end in
  match split_go (t "__") 0 [] (fst x) with
  | n :: op :: _ => match assoc op exps with Some e => Ok (n, e, v) | None => Err KeyError end
  | [n] => Ok (n, t "==", v)
  | [] => Err IndexError
  end.
(** config.py:120-127 *)
Fixpoint collect (ks : list (text * text)) (query : text) (args : list (text * text * V)) : res (text * list (text * text * V)) :=
  match ks with
  | [] => Ok (query, args)
  | k :: r => do a <- argument k; collect r (py_replace query (placeholder k) (t "%s")) (args ++ [a])
  end.
(** config.py:117-129 *)
Definition parse_virtual_view_args (query : text) : res (text * list (text * text * V)) := collect (find_all (S (length query)) query) query [].
End Viewarg.

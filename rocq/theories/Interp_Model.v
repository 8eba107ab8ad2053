(** Model of placeholder interpolation: syncanysql/executor.py:20 ENV_VARIABLE_RE and 106-142 compile_variable. *)
From Verif Require Import Base PyVal Str_Model.

(** A variable's value. [Other v] is any value rendered with str() (or strftime for dates and times). *)
Inductive envval (A : Type) := EBool (b : bool) | ENull | ESeq (l : list (envval A)) | Other (v : A).
Arguments EBool {A}. Arguments ENull {A}. Arguments ESeq {A}. Arguments Other {A}.

Section Interp.
Variable A : Type.
(** str(value), value.strftime(...): the Python rendering, external. *)
Variable str : A -> text.
(** str.lower. *)
Variable lower : text -> text.
(** The \w characters beyond ASCII (unicodedata). *)
Variable uword : N -> bool.
(** executor.py:115-123: the default text read as a function call and evaluated; None on any exception (in
    particular when it does not look like a call). The result has already passed StringFilter and is formatted. External. *)
Variable call_default : text -> option text.
(** self.env_variables.get_value, None for KeyError. *)
Variable get_value : text -> option (envval A).

(** [@\w] *)
Definition word (c : N) : bool :=
  (((48 <=? c) && (c <=? 57)) || ((65 <=? c) && (c <=? 90)) || ((97 <=? c) && (c <=? 122)) || (c =? 95) || (c =? 64)
   || ((128 <=? c) && uword c))%N.

(** The longest prefix of word characters, and the rest. *)
Fixpoint span_word (s : text) : text * text :=
  match s with
  | c :: r => if word c then let (a, b) := span_word r in (c :: a, b) else ([], s)
  | [] => ([], [])
  end.
(** Up to the first '}': the text before it and the text after it. *)
Fixpoint until_close (s : text) : option (text * text) :=
  match s with
  | [] => None
  | c :: r => if (c =? 125)%N then Some ([], r) else match until_close r with Some (a, b) => Some (c :: a, b) | None => None end
  end.
(** After "${": [@\w]+?(:.*?)?\}.  Neither ':' nor '}' is a word character, so the lazy run ends exactly at the first
    character that is not one. Result: name, group 2 ('' when absent), remaining text. *)
Definition match_var (s : text) : option (text * text * text) :=
  match span_word s with
  | ([], _) => None
  | (name, 125%N :: r) => Some (name, [], r)
  | (name, 58%N :: r) => match until_close r with Some (d, r') => Some (name, 58%N :: d, r') | None => None end
  | _ => None
  end.
(** re.findall: the matches from left to right, not overlapping, as (name, group 2). *)
Fixpoint find_all (fuel : nat) (s : text) : list (text * text) :=
  match fuel with
  | O => []
  | S fuel =>
    match s with
    | [] => []
    | 36%N :: 123%N :: r => match match_var r with
                            | Some (name, d, r') => (name, d) :: find_all fuel r'
                            | None => find_all fuel (123%N :: r)
                            end
    | _ :: r => find_all fuel r
    end
  end.
(** group 1 *)
Definition variable (x : text * text) : text := t "${" ++ fst x ++ snd x ++ t "}".

(** executor.py:126-140 format_variable_value. *)
Fixpoint format (v : envval A) : text :=
  match v with
  | EBool true => t "true"
  | EBool false => t "false"
  | ENull => t "null"
  | ESeq l => t "(" ++ join (t ",") (map format l) ++ t ")"
  | Other v => str v
  end.
(** executor.py:109-124 *)
Definition value_of (x : text * text) : text :=
  match get_value (lower (fst x)) with
  | Some v => format v
  | None => match call_default (tl (snd x)) with Some r => r | None => tl (snd x) end
  end.
Definition compile_variable (sql : text) : text :=
  fold_left (fun sql x => py_replace sql (variable x) (value_of x)) (find_all (S (length sql)) sql) sql.
End Interp.

(** Model of GET_VALUE: compiler.py:1542-1570 of compile_calculate.

    Trusted reading of the package: ["$.x", R] is the value of the column handed to the return column R; ["#if", True, C, None, R] is the value of C handed to R; the return column ":$.path" follows the path in
    the value handed to it, and [":$.path", R] hands what it finds to R (tests/test_example_get_value.py).  What a path leads to in a value is the argument [at_path].
    Simplifications: a column compiles to a text, every other expression to a list; GET_VALUE() without arguments, which is refused (1544-1545), cannot be written in the syntax; a ?-argument or variable as a key is the
    constant of its value. *)
From Verif Require Import Base PyVal Getval_Syntax.
Local Open Scope nat_scope.
Section Model.
Variable V : Type.
Variable at_path : text -> V -> V.
Inductive return_column := Path (p : text) | Nest (p : text) (r : return_column).
Inductive column :=
| Text (name : text)                                 (* "$.name" *)
| List (f : grow V -> V)
| Pipe (name : text) (r : return_column)             (* ["$.name", r] *)
| If (c : column) (r : return_column).               (* ["#if", True, c, None, r] *)
(** int(value) when isinstance(value, (int, float)); True and False are ints. *)
Definition int_of (c : const) : option Z :=
  match c with Int z => Some z | Real z => Some z | Bool b => Some (if b then 1%Z else 0%Z) | Str _ | Null => None end.
(** str(value) of the others *)
Definition str_of (c : const) : text := match c with Str s => s | _ => t "None" end.
(** ":".join(l) *)
Fixpoint join_colon (l : list text) : text := match l with [] => [] | [a] => a | a :: r => a ++ 58%N :: join_colon r end.
(** 1553-1563: the text after ":$." *)
Definition key_path (k : key) : res text :=
  match k with
  | Const c => Ok (match int_of c with Some z => 58%N :: str_of_Z z | None => str_of c end)
  | Tuple l =>
    let consts := flat_map (fun o => match o with Some c => [c] | None => [] end) l in
    let ints := flat_map (fun c => match int_of c with Some z => [z] | None => [] end) consts in
    Ok (58%N :: join_colon (firstn 3 (map str_of_Z ints)))
  | Other => Err CompileError
  end.
(** 1552-1566 get_value_parse *)
Fixpoint get_value_parse (k : key) (ks : list key) : res return_column :=
  do p <- key_path k;
  match ks with
  | [] => Ok (Path p)
  | k' :: ks' => do r <- get_value_parse k' ks'; Ok (Nest p r)
  end.
(** 1546-1570 *)
Fixpoint compile (e : gexpr V) : res column :=
  match e with
  | Col n => Ok (Text n)
  | Expr f => Ok (List f)
  | Get e ks =>
    do c <- compile e;
    match ks with
    | [] => Ok c
    | k :: ks' => do r <- get_value_parse k ks'; Ok (match c with Text n => Pipe n r | _ => If c r end)
    end
  end.
(** The package. *)
Fixpoint follow (r : return_column) (v : V) : V := match r with Path p => at_path p v | Nest p r => follow r (at_path p v) end.
Fixpoint eval (c : column) (r : grow V) : V := match c with Text n => r n | List f => f r | Pipe n q => follow q (r n) | If c q => follow q (eval c r) end.
End Model.

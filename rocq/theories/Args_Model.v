(** Model of the settings of a statement and of its subqueries: compiler.py:240-243 (compile_with), 262-269 (compile_subquery), 356-361
    (compile_union), 550 and 383-384, 607-608 (@limit, @primary_order), taskers/query.py:113-121 (start), calculaters/query_tasker_calculater.py:24-29,
    taskers/explain.py:25-28.

    A dictionary of arguments is a function from keys to values or nothing.  A statement is a tree: its name, its subqueries in the order in which
    they are compiled, each with the assignments made to the arguments of the statement just after it, and the assignments made
    after all of them.  Not modelled: "@batch" and "@loop" of a subquery reading its own output (compiler.py:249-250), see With_Model. *)
From Verif Require Import Base Str_Model.

Section Args.
Variable V : Type.
Definition args := text -> option V.
Inductive node := Node (name : text) (children : list (node * list (text * V))) (own : list (text * V)).
Definition node_name (n : node) : text := match n with Node a _ _ => a end.

(** config.py:21-22 CONST_CONFIG_KEYS. *)
Definition const_keys : list text :=
  [t "@verbose"; t "@timeout"; t "@limit"; t "@batch"; t "@streaming"; t "@recovery"; t "@join_batch"; t "@insert_batch"; t "@primary_order"].
Definition const_args (a : args) : args := fun k => if existsb (text_eqb k) const_keys then a k else None.
Definition set (k : text) (v : V) (a : args) : args := fun k' => if text_eqb k' k then Some v else a k'.
Definition assign (l : list (text * V)) (a : args) : args := fold_left (fun a kv => set (fst kv) (snd kv) a) l a.
(** arguments.update({name + "@" + key: value for key, value in sub.items()}) *)
Definition update (name : text) (sub a : args) : args := fun k =>
  if prefixb (name ++ t "@") k then match sub (skipn (length (name ++ t "@")) k) with Some v => Some v | None => a k end else a k.

(** The arguments after compiling a statement with [a]. *)
Fixpoint compile (n : node) (a : args) : args :=
  match n with
  | Node _ children own =>
    assign own (fold_left (fun a c => assign (snd c) (update (node_name (fst c)) (compile (fst c) (const_args a)) a)) children a)
  end.

(** query.py:113-121: the arguments with which a subquery is started. *)
Definition strip (name : text) (a : args) : args := fun k => a (name ++ t "@" ++ k).
(** The subquery reached by going down to the child of each number, and the arguments with which it is started. *)
Fixpoint start (n : node) (a : args) (path : list nat) : option (node * args) :=
  match path with
  | [] => Some (n, a)
  | i :: p => match n with Node _ children _ =>
      match nth_error children i with Some (c, _) => start c (strip (node_name c) a) p | None => None end end
  end.
(** explain.py:25-28. *)
Definition suffixb (s k : text) : bool := text_eqb (skipn (length k - length s) k) s.
Definition explain (true_ : V) (a : args) : args := fun k =>
  match a k with Some v => if suffixb (t "@verbose") k then Some true_ else Some v | None => None end.
End Args.

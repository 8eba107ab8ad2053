(** Model of YIELD_ARRAY: calculaters/generate_calculater.py:12-18, calculaters/__init__.py find_generate_calculater, and compiler.py:1615-1620 of compile_calculate.

    Trusted reading of the package (tests/test_example_yield_data.py shows it): when columns of a row are generators, the loader takes the next value of every generator, and makes a row of these values and
    of the other columns, until none of them has another value; a generator that has ended gives NULL.
    What the package does with a row whose generators are all empty is not known: it is the argument [on_empty].
    Simplifications: YIELD_ARRAY stands alone in its column, other expressions are functions of the row; no WHERE, ORDER BY, LIMIT, GROUP BY in the same SELECT; generator functions of the user (find_generate_calculater
    looks at the flags of the code) are not modelled. *)
From Verif Require Import Base Yield_Syntax.
Local Open Scope nat_scope.
Section Model.
Variable V : Type.
Variable null : V.
Variable array_of : V -> option (list V).            (* isinstance(values, list), and the list *)
Variable on_empty : list V -> list (list V).
(** Compiled columns: ["#yield", column] or column (1615-1620). *)
Inductive column := Column (e : yrow V -> V) | YieldColumn (e : yrow V -> V).
Definition compile (i : item V) : column := match i with Plain e => Column e | Yield e => YieldColumn e end.
(** generate_calculater.py:13-18 *)
Definition calculate (v : V) : list V := match array_of v with Some l => l | None => [v] end.
(** A column of a row: a value, or a generator with the values to come. *)
Inductive cell := Value (v : V) | Generator (l : list V).
Definition get (r : yrow V) (c : column) : cell := match c with Column e => Value (e r) | YieldColumn e => Generator (calculate (e r)) end.
Definition is_generator (c : cell) : bool := match c with Generator _ => true | _ => false end.
Definition peek (c : cell) : V := match c with Value v => v | Generator [] => null | Generator (v :: _) => v end.
Definition alive (c : cell) : bool := match c with Generator (_ :: _) => true | _ => false end.
Definition advance (c : cell) : cell := match c with Generator (_ :: l) => Generator l | _ => c end.
Fixpoint lockstep (fuel : nat) (cs : list cell) : list (list V) :=
  match fuel with
  | 0 => []
  | S fuel => if existsb alive cs then map peek cs :: lockstep fuel (map advance cs) else []
  end.
Definition size (c : cell) : nat := match c with Value _ => 0 | Generator l => length l end.
Definition row_rows (items : list (item V)) (r : yrow V) : list (list V) :=
  let cs := map (get r) (map compile items) in
  if existsb is_generator cs then match lockstep (list_max (map size cs)) cs with [] => on_empty (map peek cs) | out => out end
  else [map peek cs].
(** SELECT items FROM rows *)
Definition select (items : list (item V)) (rows : list (yrow V)) : list (list V) := concat (map (row_rows items) rows).
End Model.

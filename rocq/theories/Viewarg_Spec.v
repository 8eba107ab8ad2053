(** Queries of virtual views: texts with placeholders #{column}, #{column__operator}, each also with a default after a colon. *)
From Verif Require Import Base.

Inductive piece := Lit (s : text) | Arg (column : text) (op : option text) (default : option text).
Definition written_name (column : text) (op : option text) : text := column ++ match op with Some o => t "__" ++ o | None => [] end.
Definition source (p : piece) : text :=
  match p with
  | Lit s => s
  | Arg n o d => t "#{" ++ written_name n o ++ match d with Some d => t ":" ++ d | None => [] end ++ t "}"
  end.
Definition render (ps : list piece) : text := concat (map source ps).

(** The comparisons by their names. *)
Inductive operator : option text -> text -> Prop :=
| O_default : operator None (t "==") | O_eq : operator (Some (t "eq")) (t "==") | O_neq : operator (Some (t "neq")) (t "!=")
| O_gt : operator (Some (t "gt")) (t ">") | O_gte : operator (Some (t "gte")) (t ">=") | O_lt : operator (Some (t "lt")) (t "<")
| O_lte : operator (Some (t "lte")) (t "<=") | O_in : operator (Some (t "in")) (t "in").

(** Characters of names: letters, digits and underscore; [uword] says which characters beyond ASCII count as letters. *)
Definition name_char (uword : N -> bool) (c : N) : Prop := (48 <= c <= 57 \/ 65 <= c <= 90 \/ 97 <= c <= 122 \/ c = 95 \/ (128 <= c /\ uword c = true))%N.
Definition single_underscores (s : text) : Prop := forall a b, s <> a ++ t "__" ++ b.
Definition no_hash (s : text) : Prop := ~ In 35%N s.
(** Text in which no placeholder starts, not even together with what follows it. *)
Definition inert (s : text) : Prop := (forall a b, s <> a ++ t "#{" ++ b) /\ forall a, s <> a ++ t "#".
Definition piece_ok (uword : N -> bool) (p : piece) : Prop :=
  match p with
  | Lit s => inert s
  | Arg n o d => n <> [] /\ Forall (name_char uword) n /\ single_underscores n /\
                 match o with Some o => (forall a, n <> a ++ t "_") /\ Forall (name_char uword) o /\ single_underscores o | None => True end /\
                 match d with Some d => no_hash d /\ ~ In 125%N d | None => True end
  end.

Section Meaning.
Variable V : Type.
(** The value that a JSON text stands for, none when it is not JSON; and a text as a value. *)
Variable json : text -> option V.
Variable of_text : text -> V.
(** The default of an argument: the JSON value, otherwise the text; the empty text when there is none. *)
Definition default_value (d : option text) (v : V) : Prop :=
  let s := match d with Some d => d | None => [] end in match json s with Some j => v = j | None => v = of_text s end.
(** The query sent to the database has a mark %s in the place of each placeholder, and the k-th argument belongs to the k-th of them. *)
Inductive meaning : list piece -> text -> list (text * text * V) -> Prop :=
| M_end : meaning [] [] []
| M_text : forall s ps q args, meaning ps q args -> meaning (Lit s :: ps) (s ++ q) args
| M_arg : forall n o d e v ps q args, operator o e -> default_value d v -> meaning ps q args -> meaning (Arg n o d :: ps) (t "%s" ++ q) ((n, e, v) :: args).
End Meaning.

(** How many marks %s a query has. *)
Fixpoint marks (s : text) : nat :=
  match s with c :: r => ((match r with d :: _ => if ((c =? 37) && (d =? 115))%N then 1 else 0 | [] => 0 end) + marks r)%nat | [] => 0%nat end.

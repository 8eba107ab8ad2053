(** What ORDER BY, LIMIT and OFFSET mean, independently of the compiler. *)
From Verif Require Import Base.
From Coq Require Import Permutation Sorting.Sorted.

(** Rows [offset + 1] .. [offset + limit]. *)
Definition page {A} (offset limit : nat) (l : list A) : list A := firstn limit (skipn offset l).

(** Lexicographic comparison by (value, descending) keys. *)
Fixpoint lex_le {A K} (leK : K -> K -> bool) (keys : list ((A -> K) * bool)) (x y : A) : bool :=
  match keys with
  | [] => true
  | (f, desc) :: r =>
    let (a, b) := if desc : bool then (f y, f x) else (f x, f y) in
    leK a b && (negb (leK b a) || lex_le leK r x y)
  end.

(** [l'] is [l] sorted by [le], rows that compare equal in their order in [l]. *)
Definition sorted_as {A} (le : A -> A -> bool) (l l' : list A) : Prop :=
  Permutation l l' /\ StronglySorted (fun x y => le x y = true) l' /\
  forall x, filter (fun y => le x y && le y x) l' = filter (fun y => le x y && le y x) l.

(** A total preorder. *)
Definition total_preorder {K} (le : K -> K -> bool) : Prop :=
  (forall a b, le a b = true \/ le b a = true) /\ (forall a b c, le a b = true -> le b c = true -> le a c = true).

(** [a] is [b] with some elements left out. *)
Inductive sublist {A} : list A -> list A -> Prop :=
| Sub_nil : sublist [] []
| Sub_skip x a b : sublist a b -> sublist a (x :: b)
| Sub_keep x a b : sublist a b -> sublist (x :: a) (x :: b).

(** Specification of the string functions, independent of the model. *)
From Verif Require Import Base.
Open Scope Z_scope.

(** [r] consists of the characters of [s] at 1-based positions a, a+1, ..., b (those that exist). *)
Definition chars_between (s : text) (a b : Z) (r : text) : Prop :=
  (forall i, nth_error r i = if (a + Z.of_nat i <=? b) then nth_error s (Z.to_nat (a - 1 + Z.of_nat i)) else None).

(** [d] occurs in [s] at offset [i]. *)
Definition occurs_at (d s : text) (i : nat) : Prop := exists p r, s = p ++ d ++ r /\ length p = i.

(** [parts] is [s] cut at the leftmost non-overlapping occurrences of [d]. *)
Inductive cut (d : text) : text -> list text -> Prop :=
| cut_none : forall s, (forall i, ~ occurs_at d s i) -> cut d s [s]
| cut_some : forall p r ps, (forall i, (i < length p)%nat -> ~ occurs_at d (p ++ d ++ r) i) ->
    cut d r ps -> cut d (p ++ d ++ r) (p :: ps).

(** the parts glued with [d] *)
Fixpoint glue (d : text) (l : list text) : text :=
  match l with
  | [] => []
  | a :: l' => a ++ match l' with [] => [] | _ => d ++ glue d l' end
  end.

(** position (from 1) of the first element of [l] satisfying P, 0 if none *)
Definition first_position {A} (P : A -> Prop) (l : list A) (n : Z) : Prop :=
  (n = 0 /\ forall x, In x l -> ~ P x) \/
  (exists i x, n = Z.of_nat i + 1 /\ nth_error l i = Some x /\ P x /\
     forall j y, (j < i)%nat -> nth_error l j = Some y -> ~ P y).

(** Unicode scalar values and their UTF-8 encoding (RFC 3629). *)
Definition scalar (c : N) : Prop := (c < 55296 \/ 57343 < c /\ c < 1114112)%N.
Definition utf8 (c : N) : list N :=
  (if c <? 128 then [c]
   else if c <? 2048 then [192 + c / 64; 128 + c mod 64]
   else if c <? 65536 then [224 + c / 4096; 128 + c / 64 mod 64; 128 + c mod 64]
   else [240 + c / 262144; 128 + c / 4096 mod 64; 128 + c / 64 mod 64; 128 + c mod 64])%N.

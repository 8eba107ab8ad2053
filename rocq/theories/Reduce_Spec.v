(** GROUP BY, stated on its own: which groups a list of rows has. *)
From Verif Require Import Base.

Section Groups.
Context {K V : Type}.
Variable same : K -> K -> bool.

(** The distinct keys in order of first appearance: a key is dropped when an equal one came before. *)
Fixpoint keys_from (seen : list K) (rows : list (K * V)) : list K :=
  match rows with
  | [] => []
  | (k, _) :: r => if existsb (fun k' => same k' k) seen then keys_from seen r else k :: keys_from (seen ++ [k]) r
  end.
Definition keys (rows : list (K * V)) : list K := keys_from [] rows.

(** The values of the rows whose key equals k, in row order. *)
Definition members (rows : list (K * V)) (k : K) : list V :=
  map snd (filter (fun kv => same k (fst kv)) rows).
End Groups.

Definition equivalence_b {K} (same : K -> K -> bool) : Prop :=
  (forall a, same a a = true) /\ (forall a b, same a b = same b a) /\
  (forall a b c, same a b = true -> same b c = true -> same a c = true).

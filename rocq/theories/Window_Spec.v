(** Specification of the window functions, independent of the model.  A partition is given by the list of
    its rows in window order. *)
From Verif Require Import Base PyVal.
Open Scope Z_scope.

(** Number of rows j of [os] with [p]. *)
Definition count_rows {A} (p : A -> bool) (os : list A) : Z := Z.of_nat (length (filter p os)).

(** SQL:2003 RANK of row i: 1 + the number of rows of the partition that come before the peers of row i;
    in window order these are the rows before i whose order value differs from that of row i. *)
Definition sql_rank (os : list val) (i : nat) : Z :=
  match nth_error os i with
  | Some o => 1 + count_rows (fun o' => negb (pyeq o' o)) (firstn i os)
  | None => 0
  end.
(** DENSE_RANK: 1 + the number of places before or at i where the order value changes. *)
Fixpoint changes (os : list val) : Z :=
  match os with
  | a :: ((b :: _) as r) => (if pyeq a b then 0 else 1) + changes r
  | _ => 0
  end.
Definition sql_dense_rank (os : list val) (i : nat) : Z := 1 + changes (firstn (S i) os).

(** NTILE(n) of row i (from 0) of a partition of [len] rows: the first len mod n buckets get one row more. *)
Definition sql_ntile (len n i : Z) : Z :=
  let q := len / n in let r := len mod n in
  if i <? r * (q + 1) then i / (q + 1) + 1 else r + (i - r * (q + 1)) / q + 1.

(** Rounding, over the real numbers. *)
From Coq Require Import Reals ZArith.

(** [n] is the integer nearest to [r]; of two equally near ones the even one. *)
Definition nearest (r : R) (n : Z) : Prop :=
  (Rabs (r - IZR n) <= / 2)%R /\ (Rabs (r - IZR n) = / 2 -> Z.even n = true)%R.

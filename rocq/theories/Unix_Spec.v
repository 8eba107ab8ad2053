(** Moments on the world's clock: a wall clock together with how far it is ahead of UTC, independently of the model. *)
From Coq Require Import ZArith.
From Verif Require Import Date_Spec.
Open Scope Z_scope.

(** A wall clock showing microsecond [u] of day [a], [off] seconds ahead of UTC, is [x] microseconds after
    1970-01-01 00:00:00 UTC. *)
Definition since_epoch (a : day) (u off x : Z) : Prop := elapsed (1970, 1, 1) 0 a u (x + off * 1000000).
(** The whole seconds passed since then. *)
Definition epoch_seconds (a : day) (u off n : Z) : Prop := exists r, 0 <= r < 1000000 /\ since_epoch a u off (n * 1000000 + r).

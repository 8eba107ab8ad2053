(** Positional number systems and base64 (RFC 4648), independent of the code. *)
From Verif Require Import Base.
Open Scope N_scope.

(** The number written with digits [l] (most significant first) in base [b]. *)
Definition number (b : N) (l : list N) : N := fold_left (fun a d => a * b + d) l 0.

Definition b64_alphabet : text := t "ABCDEFGHIJKLMNOPQRSTUVWXYZabcdefghijklmnopqrstuvwxyz0123456789+/".
(** [s] is the base64 form of [bytes]: the bits of the bytes, filled up with fewer than six zero bits, cut into groups of six, each written as
    its character of the alphabet, and filled up with = to a multiple of four characters. *)
Definition is_base64 (bytes : list N) (s : text) : Prop := exists sextets k,
  s = map (fun v => nth (N.to_nat v) b64_alphabet 0) sextets ++ repeat 61 k /\ Forall (fun v => v < 64) sextets /\
  (k < 4)%nat /\ ((length sextets + k) mod 4 = 0)%nat /\
  exists zeros, zeros < 6 /\ 6 * N.of_nat (length sextets) = 8 * N.of_nat (length bytes) + zeros /\
    number 64 sextets = number 256 bytes * 2 ^ zeros.

(** The characters of digits up to sixteen. *)
Definition digit_chars : text := t "0123456789abcdef".
Definition written (b : N) (ds : list N) (s : text) : Prop :=
  s = map (fun d => nth (N.to_nat d) digit_chars 0) ds /\ Forall (fun d => d < b) ds.

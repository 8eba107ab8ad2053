(** What a text literal means: the escape sequences of a Python string, independently of the decoder. *)
From Verif Require Import Base.
Local Open Scope N_scope.

(** Escapes of one character: backslash, quotes, a b f n r t v. *)
Definition simple_escapes : list (N * N) :=
  [(92, 92); (39, 39); (34, 34); (97, 7); (98, 8); (102, 12); (110, 10); (114, 13); (116, 9); (118, 11)].
Definition oct_digit (c v : N) : Prop := v < 8 /\ c = 48 + v.
Inductive hex_digit : N -> N -> Prop :=
| Hex_num v : v < 10 -> hex_digit (48 + v) v
| Hex_lower v : 10 <= v < 16 -> hex_digit (87 + v) v
| Hex_upper v : 10 <= v < 16 -> hex_digit (55 + v) v.
(** A numeral with digits [d] in base [b]. *)
Inductive numeral (d : N -> N -> Prop) (b : N) : text -> N -> Prop :=
| Num_nil : numeral d b [] 0
| Num_snoc s v c w : numeral d b s v -> d c w -> numeral d b (s ++ [c]) (b * v + w).

(** Characters that start another escape: newline 0-7 x u U N *)
Definition starts_escape (c : N) : Prop :=
  c = 10 \/ In c (map fst simple_escapes) \/ 48 <= c <= 55 \/ c = 120 \/ c = 117 \/ c = 85 \/ c = 78.

Section Denotes.
Variable uname : text -> option N.     (* Unicode character names *)
Inductive denotes : text -> text -> Prop :=
| D_nil : denotes [] []
| D_plain c s v : c <> 92 -> denotes s v -> denotes (c :: s) (c :: v)
| D_simple c d s v : In (c, d) simple_escapes -> denotes s v -> denotes (92 :: c :: s) (d :: v)
| D_newline s v : denotes s v -> denotes (92 :: 10 :: s) v
| D_octal ds n s v : (1 <= length ds <= 3)%nat -> numeral oct_digit 8 ds n ->
    (length ds = 3%nat \/ forall c w r, s = c :: r -> ~ oct_digit c w) -> denotes s v -> denotes (92 :: ds ++ s) (n :: v)
| D_hex e k ds n s v : In (e, k) [(120, 2%nat); (117, 4%nat); (85, 8%nat)] -> length ds = k -> numeral hex_digit 16 ds n ->
    n <= 1114111 -> denotes s v -> denotes (92 :: e :: ds ++ s) (n :: v)
| D_name nm n s v : nm <> [] -> ~ In 125 nm -> (forall c, In c nm -> c <= 256) -> uname nm = Some n -> denotes s v ->
    denotes (92 :: 78 :: 123 :: nm ++ 125 :: s) (n :: v)
| D_unknown c s v : ~ starts_escape c -> c <= 256 -> denotes s v -> denotes (92 :: c :: s) (92 :: c :: v).
End Denotes.

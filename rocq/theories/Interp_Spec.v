(** Statement texts with placeholders. *)
From Verif Require Import Base.

(** Text outside placeholders, or a placeholder ${name} / ${name:default}. *)
Inductive piece := Lit (s : text) | Hole (name : text) (default : option text).

Definition source (p : piece) : text :=
  match p with
  | Lit s => s
  | Hole n None => t "${" ++ n ++ t "}"
  | Hole n (Some d) => t "${" ++ n ++ t ":" ++ d ++ t "}"
  end.
Definition render (ps : list piece) : text := concat (map source ps).

(** Characters a name may contain: letters, digits, '_' and '@'; [uword] says which characters beyond ASCII count as letters. *)
Definition name_char (uword : N -> bool) (c : N) : Prop :=
  (48 <= c <= 57 \/ 65 <= c <= 90 \/ 97 <= c <= 122 \/ c = 95 \/ c = 64 \/ (128 <= c /\ uword c = true))%N.
Definition name_ok (uword : N -> bool) (n : text) : Prop := n <> [] /\ Forall (name_char uword) n.
(** Text in which no placeholder starts, not even together with what follows it. *)
Definition inert (s : text) : Prop := (forall a b, s <> a ++ t "${" ++ b) /\ forall a, s <> a ++ t "$".
Definition no_dollar (s : text) : Prop := ~ In 36%N s.
Definition piece_ok (uword : N -> bool) (p : piece) : Prop :=
  match p with
  | Lit s => inert s
  | Hole n d => name_ok uword n /\ match d with Some d => no_dollar d /\ ~ In 125%N d | None => True end
  end.

(** Texts separated by single commas. *)
Inductive commas : list text -> text -> Prop :=
| commas_one : forall x, commas [x] x
| commas_more : forall x r b, commas r b -> commas (x :: r) (x ++ t "," ++ b).

(** C125: LIMIT m, n. *)
From Verif Require Import Base Limit_Model.

Section Limit.
Variable E : Type.
Variable number : text -> E.
Variables base_limit base_offset : list token -> option E * list token.
Notation read := (limit_and_offset number base_limit base_offset).

(** LIMIT m, n skips m rows and takes n. *)
Theorem limit_comma : forall m n rest, read (LIMIT :: NUMBER m :: COMMA :: NUMBER n :: rest) = (Some (number n), Some (number m), rest).
Proof. intros. reflexivity. Qed.
(** It means the same as LIMIT n OFFSET m where sqlglot reads that as it is written. *)
Theorem limit_comma_offset : forall m n rest,
  base_limit (LIMIT :: NUMBER n :: OFFSET :: NUMBER m :: rest) = (Some (number n), OFFSET :: NUMBER m :: rest) ->
  base_offset (OFFSET :: NUMBER m :: rest) = (Some (number m), rest) ->
  read (LIMIT :: NUMBER m :: COMMA :: NUMBER n :: rest) = read (LIMIT :: NUMBER n :: OFFSET :: NUMBER m :: rest).
Proof. intros m n rest L O. unfold limit_and_offset. cbn [parse_limit parse_offset]. rewrite L. cbn [parse_offset]. rewrite O. reflexivity. Qed.
(** A limit or offset written in any other way is left to sqlglot. *)
Theorem limit_otherwise : forall ts, (forall m n rest, ts <> LIMIT :: NUMBER m :: COMMA :: NUMBER n :: rest) ->
  (forall m n rest, snd (base_limit ts) <> LIMIT :: NUMBER m :: COMMA :: NUMBER n :: rest) ->
  read ts = (fst (base_limit ts), fst (base_offset (snd (base_limit ts))), snd (base_offset (snd (base_limit ts)))).
Proof.
  intros ts N1 N2. unfold limit_and_offset.
  assert (L : parse_limit number base_limit false ts = base_limit ts).
  { unfold parse_limit. destruct ts as [|[] [|[] [|[] [|[] ts]]]]; try reflexivity. exfalso. eapply N1. reflexivity. }
  rewrite L. destruct (base_limit ts) as [l ts'] eqn:B. cbn [fst snd] in *.
  assert (O : parse_offset number base_offset ts' = base_offset ts').
  { unfold parse_offset. destruct ts' as [|[] [|[] [|[] [|[] ts']]]]; try reflexivity. exfalso. eapply N2. reflexivity. }
  rewrite O. destruct (base_offset ts'). reflexivity.
Qed.
End Limit.
Print Assumptions limit_comma. Print Assumptions limit_comma_offset. Print Assumptions limit_otherwise.

(** sqlglot, on the tokens at hand *)
Definition ex_limit (ts : list token) : option text * list token := match ts with LIMIT :: NUMBER n :: r => (Some n, r) | _ => (None, ts) end.
Definition ex_offset (ts : list token) : option text * list token := match ts with OFFSET :: NUMBER n :: r => (Some n, r) | COMMA :: NUMBER n :: r => (Some n, r) | _ => (None, ts) end.
Example limit_ex : limit_and_offset (fun s => s) ex_limit ex_offset [LIMIT; NUMBER (t "10"); COMMA; NUMBER (t "5"); TOKEN 7] = (Some (t "5"), Some (t "10"), [TOKEN 7]) /\
  limit_and_offset (fun s => s) ex_limit ex_offset [LIMIT; NUMBER (t "5"); OFFSET; NUMBER (t "10"); TOKEN 7] = (Some (t "5"), Some (t "10"), [TOKEN 7]) /\
  limit_and_offset (fun s => s) ex_limit ex_offset [LIMIT; NUMBER (t "5")] = (Some (t "5"), None, []).
Proof. repeat split. Qed.

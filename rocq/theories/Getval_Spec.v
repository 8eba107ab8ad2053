(** What GET_VALUE means.  A path is a text like those after the dot of a column name `x.path`; what it leads to is the package's: [at_path] is any function. *)
From Verif Require Import Base PyVal Getval_Syntax.
Section Spec.
Variable V : Type.
Variable at_path : text -> V -> V.
Definition colon : text := [58%N].
(** The integer of a constant. *)
Inductive number : const -> Z -> Prop := N_int : forall z, number (Int z) z | N_real : forall z, number (Real z) z.
(** The path of a key: a string is a path itself; a number n is :n; a tuple is :a, :a:b or :a:b:c. *)
Inductive path : key -> text -> Prop :=
| P_string : forall s, path (Const (Str s)) s
| P_number : forall c z, number c z -> path (Const c) (colon ++ str_of_Z z)
| P_one : forall c z, number c z -> path (Tuple [Some c]) (colon ++ str_of_Z z)
| P_two : forall c d y z, number c y -> number d z -> path (Tuple [Some c; Some d]) (colon ++ str_of_Z y ++ colon ++ str_of_Z z)
| P_three : forall b c d x y z, number b x -> number c y -> number d z ->
    path (Tuple [Some b; Some c; Some d]) (colon ++ str_of_Z x ++ colon ++ str_of_Z y ++ colon ++ str_of_Z z).
(** The value is followed along the paths, one after the other. *)
Inductive follows : V -> list key -> V -> Prop :=
| F_end : forall v, follows v [] v
| F_step : forall v k p ks w, path k p -> follows (at_path p v) ks w -> follows v (k :: ks) w.
Inductive means (r : grow V) : gexpr V -> V -> Prop :=
| M_col : forall n, means r (Col n) (r n)
| M_expr : forall f, means r (Expr f) (f r)
| M_get : forall e ks v w, means r e v -> follows v ks w -> means r (Get e ks) w.
(** All keys have a path. *)
Inductive proper : gexpr V -> Prop :=
| Pr_col : forall n, proper (Col n) | Pr_expr : forall f, proper (Expr f)
| Pr_get : forall e ks, proper e -> Forall (fun k => exists p, path k p) ks -> proper (Get e ks).
(** Some GET_VALUE of the expression has a key that is neither a constant nor a tuple. *)
Inductive improper : gexpr V -> Prop :=
| Im_key : forall e ks, In Other ks -> improper (Get e ks)
| Im_in : forall e ks, improper e -> improper (Get e ks).
End Spec.

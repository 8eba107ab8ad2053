(** Specification for numeric coercion and SET literals, independent of Utils_Model. *)
From Verif Require Import Base.
Open Scope Z_scope.

(** Decimal digits and the number they denote. *)
Definition digit (c : N) : Prop := (48 <= c <= 57)%N.
Definition decval (ds : text) : Z := fold_left (fun a c => 10 * a + (Z.of_N c - 48)) ds 0.
Definition digits (ds : text) : Prop := ds <> [] /\ Forall digit ds.

Definition white (c : N) : Prop := (c = 32 \/ 9 <= c <= 13 \/ 28 <= c <= 31)%N.

(** Digit groups joined by single underscores. *)
Fixpoint join_us (gs : list text) : text :=
  match gs with
  | [] => []
  | [g] => g
  | g :: gs' => g ++ 95%N :: join_us gs'
  end.

(** An integer literal: white space, optional sign, digit groups joined by '_', white space. *)
Definition int_literal (s : text) (z : Z) : Prop :=
  exists w1 sg gs w2,
    s = w1 ++ sg ++ join_us gs ++ w2 /\ Forall white w1 /\ Forall white w2 /\
    gs <> [] /\ Forall digits gs /\
    ((sg = [] \/ sg = t "+") /\ z = decval (concat gs) \/ sg = t "-" /\ z = - decval (concat gs)).

(** [ds] is the longest leading run of digits of [s]. *)
Definition leading_digits (s ds : text) : Prop :=
  exists rest, s = ds ++ rest /\ Forall digit ds /\
    match rest with [] => True | c :: _ => ~ digit c end.

(** [p] is the longest leading unsigned decimal of [s]: digits, optionally '.' and digits
    (a '.' not followed by a digit does not belong to it). *)
Definition leading_decimal (s p : text) : Prop :=
  exists ip rest, leading_digits s ip /\ s = ip ++ rest /\
    ((exists fp, leading_digits (skipn 1 rest) fp /\ fp <> [] /\ firstn 1 rest = t "." /\
                 p = ip ++ t "." ++ fp)
     \/ (p = ip /\ (firstn 1 rest <> t "." \/ leading_digits (skipn 1 rest) []))).

(** The constants of SET values, in any letter case (ASCII). *)
Definition lower_letter (c : N) : N := if ((65 <=? c) && (c <=? 90))%N then (c + 32)%N else c.
Definition spells (s word : text) : Prop := map lower_letter s = word.

(** What the text of a SET value denotes (after removing surrounding white space).
    [VI z], [VS s]...: the kinds of values. *)
Inductive lit :=
| LInt (z : Z) | LText (s : text) | LBool (b : bool) | LNull
| LDec (n : Z) (k : nat).      (* the decimal number n / 10^k *)

Inductive denotes : text -> lit -> Prop :=
| den_empty : denotes [] (LText [])
| den_quoted : forall q q' s, (q = 39 \/ q = 34)%N -> (q' = 39 \/ q' = 34)%N ->
    denotes (q :: s ++ [q']) (LText s)
| den_int : forall ds, digits ds -> denotes ds (LInt (decval ds))
| den_negint : forall ds, digits ds -> denotes (45%N :: ds) (LInt (- decval ds))
| den_true : forall s, spells s (t "true") -> denotes s (LBool true)
| den_false : forall s, spells s (t "false") -> denotes s (LBool false)
| den_null : forall s, spells s (t "null") -> denotes s LNull
| den_dec : forall ip fp, digits ip -> digits fp ->
    denotes (ip ++ 46%N :: fp) (LDec (decval (ip ++ fp)) (length fp)).

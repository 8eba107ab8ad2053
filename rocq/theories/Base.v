(** Shared vocabulary: text, results with exceptions, Python sequence slicing.
    This file models no code of /repo by itself; it fixes the meaning of the Python
    primitives (str as a sequence of code points, slices, exceptions) that the code uses. *)
From Coq Require Export Ascii String.
From Coq Require Export List Arith NArith ZArith Bool Lia.
Export ListNotations.
Set Implicit Arguments.

(** Python [str]: a sequence of code points. *)
Definition text := list N.

(** Test-literal helper: an ASCII literal as text. *)
Fixpoint t (s : string) : text :=
  match s with
  | EmptyString => []
  | String a r => N_of_ascii a :: t r
  end.

(** Python exceptions that the modelled code raises. *)
Inductive exn :=
| ValueError | TypeError | KeyError | IndexError | AttributeError | ZeroDivisionError
| OverflowError | EOFErr | CompileError | OtherError.

(** Outcome of a Python call: a value or an exception. *)
Inductive res (A : Type) :=
| Ok (a : A)
| Err (e : exn).
Arguments Ok {A} a.
Arguments Err {A} e.

Definition bind {A B} (x : res A) (f : A -> res B) : res B :=
  match x with Ok a => f a | Err e => Err e end.
Notation "'do' x <- e ; f" := (bind e (fun x => f))
  (at level 200, x name, e at level 100, f at level 200, right associativity).

(** Python [try: a except: b]. *)
Definition try_ {A} (x y : res A) : res A :=
  match x with Ok a => Ok a | Err _ => y end.

Fixpoint text_eqb (a b : text) : bool :=
  match a, b with
  | [], [] => true
  | x :: a', y :: b' => N.eqb x y && text_eqb a' b'
  | _, _ => false
  end.

Lemma text_eqb_spec : forall a b, text_eqb a b = true <-> a = b.
Proof.
  induction a as [|x a IH]; destruct b as [|y b]; simpl; split; intro H; try congruence.
  - apply andb_true_iff in H as [H1 H2]. apply N.eqb_eq in H1. apply IH in H2. congruence.
  - inversion H; subst. rewrite N.eqb_refl. simpl. apply IH. reflexivity.
Qed.

Lemma text_eqb_refl : forall a, text_eqb a a = true.
Proof. intro a. apply text_eqb_spec. reflexivity. Qed.

Lemma text_eqb_neq : forall a b, text_eqb a b = false <-> a <> b.
Proof.
  intros a b. split.
  - intros H E. apply text_eqb_spec in E. congruence.
  - intros H. destruct (text_eqb a b) eqn:E; auto. apply text_eqb_spec in E. congruence.
Qed.

Lemma text_eqb_sym : forall a b, text_eqb a b = text_eqb b a.
Proof.
  intros a b. destruct (text_eqb a b) eqn:E.
  - apply text_eqb_spec in E. subst. symmetry. apply text_eqb_refl.
  - destruct (text_eqb b a) eqn:F; auto. apply text_eqb_spec in F. subst.
    rewrite text_eqb_refl in E. congruence.
Qed.

Definition text_eq_dec : forall a b : text, {a = b} + {a <> b} := list_eq_dec N.eq_dec.

(** Python slice [l[a:b]] for optional bounds, negative indices counting from the end. *)
Definition clampidx (len i : Z) : nat :=
  Z.to_nat (if Z.ltb i 0 then Z.max 0 (i + len) else Z.min i len).
Definition pyslice {A} (l : list A) (a b : option Z) : list A :=
  let len := Z.of_nat (length l) in
  let i := match a with None => 0%nat | Some a => clampidx len a end in
  let j := match b with None => length l | Some b => clampidx len b end in
  firstn (j - i) (skipn i l).

(** Python indexing [l[i]], negative indices counting from the end. *)
Definition pyindex {A} (l : list A) (i : Z) : option A :=
  let len := Z.of_nat (length l) in
  let j := if Z.ltb i 0 then (i + len)%Z else i in
  if Z.ltb j 0 then None else nth_error l (Z.to_nat j).

(** Python [str.strip()]; [sp] is the whitespace test (external). *)
Fixpoint lstrip (sp : N -> bool) (s : text) : text :=
  match s with
  | [] => []
  | c :: r => if sp c then lstrip sp r else s
  end.
Definition strip (sp : N -> bool) (s : text) : text := rev (lstrip sp (rev (lstrip sp s))).

(** Python dict as an association list, most recent binding first. *)
Fixpoint assoc {A} (k : text) (m : list (text * A)) : option A :=
  match m with
  | [] => None
  | (k', v) :: r => if text_eqb k k' then Some v else assoc k r
  end.

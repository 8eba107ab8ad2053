(** What SQL says about joins: nested loops over the tables in the order they are written. *)
From Verif Require Import Base PyVal Joins_Syntax.

Section Spec.
Variable cmpv : cmp -> val -> val -> bool.    (* when a comparison of two values is true *)
Variable dflt : text.                         (* the table an unqualified column is read from *)

Definition rget (r : row) (n : text) : val := match assoc n r with Some v => v | None => VNone end.
Definition cval (e : env) (c : col) : val :=
  match assoc (match ctab c with Some tb => tb | None => dflt end) e with
  | Some (Some r) => rget r (cname c)
  | _ => VNone
  end.
Definition oval (e : env) (o : operand) : val :=
  match o with OCol c => cval e c | OExpr cols f => f (map (cval e) cols) end.
Definition atrue (e : env) (a : atom) : bool :=
  match a with
  | ACmp o l r => cmpv o (oval e l) (oval e r)
  | AIn l f => f (oval e l)
  | AOther cols f => f (map (cval e) cols)
  end.
Definition alltrue (l : list atom) (e : env) : bool := forallb (atrue e) l.

(** The pairs of a left combination with a matching row of [tb]. *)
Definition matches (d : db) (tb : text) (on : list atom) (e : env) : list env :=
  filter (alltrue on) (map (fun r => (tb, Some r) :: e) (d tb)).
Definition inner_join (d : db) (tb : text) (on : list atom) (es : list env) : list env :=
  flat_map (matches d tb on) es.
Definition left_join (d : db) (tb : text) (on : list atom) (es : list env) : list env :=
  flat_map (fun e => match matches d tb on e with [] => [(tb, None) :: e] | m => m end) es.
(** The rows of [tb] that match no left combination, null-extended on the left tables [ts]. *)
Definition unmatched (d : db) (ts : list text) (tb : text) (on : list atom) (es : list env) : list env :=
  map (fun r => (tb, Some r) :: map (fun x => (x, None)) ts)
      (filter (fun r => negb (existsb (fun e => alltrue on ((tb, Some r) :: e)) es)) (d tb)).
Definition right_join d ts tb on es := inner_join d tb on es ++ unmatched d ts tb on es.
Definition full_join d ts tb on es := left_join d tb on es ++ unmatched d ts tb on es.

Definition sql_join (d : db) (st : list text * list env) (j : join) : list text * list env :=
  let '(ts, es) := st in
  (jtab j :: ts,
   match jside j with
   | SNone => inner_join d (jtab j) (jon j) es
   | SLeft => left_join d (jtab j) (jon j) es
   | SRight => right_join d ts (jtab j) (jon j) es
   | SFull => full_join d ts (jtab j) (jon j) es
   end).

Definition sql_from (d : db) (ts : list text) : list text * list env :=
  fold_left (fun st tb => (tb :: fst st, inner_join d tb [] (snd st))) ts ([], [[]]).

(** FROM, then the joins from left to right, then WHERE. *)
Definition sql_query (d : db) (q : query) : list env :=
  filter (alltrue (qwhere q)) (snd (fold_left (sql_join d) (qjoins q) (sql_from d (qfrom q)))).
End Spec.

(** Comparisons with NULL are not true, and "=" does not depend on the order of its operands. *)
Definition null_rejecting (cmpv : cmp -> val -> val -> bool) : Prop :=
  forall o v, cmpv o VNone v = false /\ cmpv o v VNone = false.
Definition eq_symmetric (cmpv : cmp -> val -> val -> bool) : Prop :=
  forall x y, cmpv CEq x y = cmpv CEq y x.

(** An expression that is NULL as soon as one of the columns it reads is NULL (arithmetic, most
    functions; not COALESCE, IFNULL, CASE). *)
Definition strict_operand (o : operand) : Prop :=
  match o with OCol _ => True | OExpr cols f => forall vs, length vs = length cols -> In VNone vs -> f vs = VNone end.
Definition strict_atom (a : atom) : Prop :=
  match a with ACmp _ l r => strict_operand l /\ strict_operand r | _ => True end.

Definition ocols (o : operand) : list col := match o with OCol c => [c] | OExpr cols _ => cols end.
Definition acols (a : atom) : list col :=
  match a with
  | ACmp _ l r => ocols l ++ ocols r
  | AIn l _ => ocols l
  | AOther cols _ => cols
  end.
(** Every column is qualified by one of the tables [ts]. *)
Definition reads (ts : list text) (l : list atom) : Prop :=
  forall a c, In a l -> In c (acols a) -> exists tb, ctab c = Some tb /\ In tb ts.
(** Table names are distinct and each ON reads only the tables named so far. *)
Fixpoint scoped (ts : list text) (js : list join) : Prop :=
  match js with
  | [] => True
  | j :: r => ~ In (jtab j) ts /\ reads (jtab j :: ts) (jon j) /\ scoped (jtab j :: ts) r
  end.

(** ON conditions that the compiler reads as written. A column compared with constants is one of the joined table, and an equality that gives a key
    does not read the joined table on its other side. *)
Definition on_clean (T : text) (a : atom) : Prop :=
  match a with
  | ACmp CEq (OCol c) r =>
      match r with
      | OCol c' => ctab c = Some T -> ctab c' <> Some T
      | OExpr [] _ => ctab c = Some T
      | OExpr cs _ => ctab c = Some T -> forall c', In c' cs -> ctab c' <> Some T
      end
  | ACmp CEq (OExpr cs _) (OCol c) => ctab c = Some T -> forall c', In c' cs -> ctab c' <> Some T
  | ACmp _ (OCol c) (OExpr [] _) => ctab c = Some T
  | AIn (OCol c) _ => ctab c = Some T
  | _ => True
  end.

Definition qualified (a : atom) : Prop := forall c, In c (acols a) -> ctab c <> None.

(** The ON condition compares a column of the joined table with something that reads table [p]. *)
Definition tab_is (tb : text) (c : col) : bool :=
  match ctab c with Some x => text_eqb x tb | None => false end.
Definition column_of (tb : text) (o : operand) : bool := match o with OCol c => tab_is tb c | _ => false end.
Definition reads_table (tb : text) (o : operand) : bool := existsb (tab_is tb) (ocols o).
Definition linked (p : text) (j : join) : bool :=
  existsb (fun a => match a with
                    | ACmp _ l r => column_of (jtab j) l && reads_table p r ||
                                    column_of (jtab j) r && reads_table p l
                    | _ => false
                    end) (jon j).

(** The same join, read as INNER or as LEFT. *)
Definition as_inner_if (b : bool) (j : join) : join := Join (jtab j) (if b then SNone else SLeft) KNone (jon j).

(** The column of the joined table that an equality ties to other columns. *)
Definition key_column (tb : text) (a : atom) : list text :=
  match a with
  | ACmp CEq l r =>
    match l with
    | OCol c => if tab_is tb c then match ocols r with [] => [] | _ => [cname c] end
                else match r with OCol c' => if tab_is tb c' then [cname c'] else [] | _ => [] end
    | OExpr cs _ =>
      match r, cs with
      | OCol c', _ :: _ => if tab_is tb c' then [cname c'] else []
      | _, _ => []
      end
    end
  | _ => []
  end.
(** No column of the joined table is tied twice. *)
Definition single_keys (j : join) : Prop := NoDup (flat_map (key_column (jtab j)) (jon j)).

(** What the compiler asks of the ON of a join. *)
Definition plain_on (j : join) : Prop :=
  single_keys j /\ forall a, In a (jon j) -> on_clean (jtab j) a.

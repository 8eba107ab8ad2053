(** What SQL says a subquery gives for one row of the outer query. *)
From Verif Require Import Base Reduce_Spec Subq_Syntax.

Section Spec.
Variable V : Type.
Variable L : lang V.
Definition conv_of (ty : option text) (v : V) : V := match ty with Some ty => l_conv V L ty v | None => v end.
(** A column belongs to the subquery when its table does or none is written, otherwise to the outer query. *)
Definition sql_look (tables : list text) (r o : row V) (c : column) : V :=
  conv_of (c_type c)
    (match c_table c with
     | None => r None (c_name c)
     | Some tb => if existsb (text_eqb tb) tables then r (Some tb) (c_name c) else o (Some tb) (c_name c)
     end).
(** The rows of the subquery that satisfy its WHERE for the outer row [o]. *)
Definition sql_rows (q : query V) (source : list (row V)) (o : row V) : list (row V) :=
  match q_where V q with
  | None => source
  | Some w => filter (fun r => l_true V L (ev V L (sql_look (q_tables V q) r o) w)) source
  end.
(** The values of the subquery, for equality [same] of GROUP BY values. *)
Fixpoint same_list (same : V -> V -> bool) (a b : list V) : bool :=
  match a, b with
  | [], [] => true
  | x :: a, y :: b => same x y && same_list same a b
  | _, _ => false
  end.
Definition sql_groups (same : V -> V -> bool) (f : list (row V) -> V) (keyed : list (list V * row V)) : list V :=
  map (fun k => f (members (same_list same) keyed k)) (keys (same_list same) keyed).
Definition limited (n : option nat) {A} (l : list A) : list A := match n with Some n => firstn n l | None => l end.
Definition sql_values (same : V -> V -> bool) (q : query V) (source : list (row V)) (o : row V) : list V :=
  limited (q_limit V q)
    (match q_kind V q with
     | Plain _ item => map (fun r => ev V L (sql_look (q_tables V q) r o) item) (sql_rows q source o)
     | Aggregate _ f [] => [f (sql_rows q source o)]
     | Aggregate _ f group =>
         sql_groups same f (map (fun r => (map (ev V L (sql_look (q_tables V q) r o)) group, r)) (sql_rows q source o))
     end).

(** *** Which part of WHERE refers to the outer query *)
Fixpoint columns (e : expr V) : list column :=
  match e with
  | Col _ c => [c]
  | Lit _ _ => []
  | App _ _ args => flat_map columns args
  | And _ a b | Eq _ a b => columns a ++ columns b
  end.
Definition own (tables : list text) (c : column) : Prop := forall tb, c_table c = Some tb -> In tb tables.
Definition outer (tables : list text) (c : column) : Prop := exists tb, c_table c = Some tb /\ ~ In tb tables.
Fixpoint conjuncts (e : expr V) : list (expr V) :=
  match e with And _ a b => conjuncts a ++ conjuncts b | _ => [e] end.
Definition where_conjuncts (q : query V) : list (expr V) := match q_where V q with None => [] | Some w => conjuncts w end.
(** [e] says that the column [c] of the subquery, of no given type, equals the column [p] of the outer query. *)
Definition correlation (tables : list text) (e : expr V) (c p : column) : Prop :=
  (e = Eq V (Col V c) (Col V p) \/ e = Eq V (Col V p) (Col V c)) /\ own tables c /\ outer tables p /\ c_type c = None.
(** No equality with the outer query is written twice. *)
Definition no_repetition (tables : list text) (es : list (expr V)) : Prop :=
  forall i j e e' c p, nth_error es i = Some e -> nth_error es j = Some e' -> correlation tables e c p -> correlation tables e' c p -> i = j.
(** Everything that refers to the outer query is such an equality. *)
Definition only_equalities (tables : list text) (es : list (expr V)) : Prop :=
  forall e, In e es -> (exists c p, correlation tables e c p) \/ forall c, In c (columns e) -> own tables c.
End Spec.

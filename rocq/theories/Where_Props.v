(** C33 (WHERE pushdown) and C40 (DELETE). *)
From Coq Require Import SpecFloat.
From Verif Require Import Base PyVal Utils_Model Calc_Model Expr_Syntax Expr_Model Expr_Spec Expr_Proofs Expr_Props
  Where_Model Where_Spec Where_Proofs.
Open Scope Z_scope.

(** C33.  [row n]: the value of column reference n; [field]: the fields of the source row.  For every WHERE
    clause that is a condition (see Expr_Spec.cond), in which no top-level comparison has its column on
    the right and no top-level IN has items that depend on the row, the rows kept by the source and the
    residual predicate are exactly those for which the clause is TRUE.  The two hypotheses on names say
    that a pushed column is an untyped, unconverted field. *)
Theorem where_pushdown : forall frepr ident ext lib tt, ext (t "neg") = None ->
  forall primary typing_name field row,
  (forall n, primary n = true -> has_bar (typing_name n) = false) ->
  (forall n, primary n = true -> field (typing_name n) = row n) ->
  let sql := sem tt (sql_fn frepr ident ext lib) in
  forall e, cond e -> top_level (fun x => column_left x /\ constant_items sql x) e ->
  select_keeps frepr ident ext lib field row
    (compile_where (compile frepr ident ext) primary typing_name e) = true <->
  truth tt (sql row e) = Some true.
Proof.
  intros fr id ext lib tt NN primary ty field row Hb Hf sql e C TL. unfold compile_where.
  pose proof (where_cond_spec fr id ext lib tt NN primary ty field row Hb Hf e [] C) as W.
  specialize (W (conj (NoDup_nil _) (fun k (I : In k []) => match I with end)) TL).
  destruct (where_cond _ _ _ e []) as [[m r] q]. destruct W as (G & P & A & _ & _ & E).
  unfold select_keeps. cbn [fst snd]. rewrite andb_true_iff, source_keeps_holds, (retype_same fr id ext lib field q G).
  assert (Nil : Holds (HH fr id ext lib field) []) by (intros k c []).
  unfold T in E. destruct r as [x|]; cbn [option_map].
  - destruct E as [Cx E]. rewrite (proj2 (compiled fr id ext lib tt NN x row) Cx). fold sql in E |- *. tauto.
  - fold sql in E. tauto.
Qed.
Print Assumptions where_pushdown.

(** C40: a DELETE without WHERE removes every row; a DELETE with a WHERE clause that is accepted removes
    exactly the rows for which the clause is TRUE. *)
Theorem delete_exact : forall frepr ident ext lib tt, ext (t "neg") = None ->
  forall primary typing_name field row,
  (forall n, primary n = true -> has_bar (typing_name n) = false) ->
  (forall n, primary n = true -> field (typing_name n) = row n) ->
  let sql := sem tt (sql_fn frepr ident ext lib) in
  let delete := compile_delete (compile frepr ident ext) primary typing_name in
  (exists q, delete None = Ok q /\ source_keeps frepr ident ext lib field q = true) /\
  forall e q, cond e -> top_level (fun x => column_left x /\ constant_items sql x) e ->
    delete (Some e) = Ok q ->
    (source_keeps frepr ident ext lib field q = true <-> truth tt (sql row e) = Some true).
Proof.
  intros fr id ext lib tt NN primary ty field row Hb Hf sql delete. split; [exists []; split; reflexivity|].
  intros e q C TL D. unfold delete, compile_delete in D.
  pose proof (where_cond_spec fr id ext lib tt NN primary ty field row Hb Hf e [] C) as W.
  specialize (W (conj (NoDup_nil _) (fun k (I : In k []) => match I with end)) TL).
  destruct (where_cond _ _ _ e []) as [[m r] q0]. destruct r as [x|]; [discriminate|]. injection D as <-.
  destruct W as (G & P & A & _ & _ & E). rewrite source_keeps_holds, (retype_same fr id ext lib field q0 G).
  assert (Nil : Holds (HH fr id ext lib field) []) by (intros k c []). unfold T in E. fold sql in E. tauto.
Qed.
Print Assumptions delete_exact.

(** Which DELETEs are accepted: every condition joined by AND compares a column of the table with an
    expression without columns, or is [column IN (...)]. *)
Definition pushable (primary : text -> bool) (e : expr) : Prop :=
  (exists k a b n, e = EBin k a b /\ comparison_op k = true /\ primary n = true /\
     ((a = ECol n /\ has_column b = false) \/ (b = ECol n /\ has_column a = false))) \/
  (exists n l, e = EIn (ECol n) l /\ primary n = true).

Theorem delete_accepted : forall compile primary typing_name e,
  (exists q, compile_delete compile primary typing_name (Some e) = Ok q) <-> top_level (pushable primary) e.
Proof.
  intros compile primary ty e. unfold compile_delete.
  assert (W : forall e q, (exists m q', where_cond compile primary ty e q = (m, None, q')) <-> top_level (pushable primary) e).
  { clear e. assert (Other : forall e q, (forall a b, e <> EAnd a b) -> (forall a, e <> EParen a) ->
        ((exists m q', where_cond compile primary ty e q = (m, None, q')) <-> pushable primary e) ->
        ((exists m q', where_cond compile primary ty e q = (m, None, q')) <-> top_level (pushable primary) e)).
    { intros e q N1 N2 K. rewrite K. split; [intros P; apply T_leaf; assumption|]. intros TL. inversion TL; subst; [exfalso; eapply N1; reflexivity|exfalso; eapply N2; reflexivity|assumption]. }
    assert (Never : forall e q, where_cond compile primary ty e q = (e, Some e, q) -> ~ pushable primary e ->
        ((exists m q', where_cond compile primary ty e q = (m, None, q')) <-> pushable primary e)).
    { intros e q K N. rewrite K. split; [intros (m & q' & X); discriminate|tauto]. }
    induction e; intros q;
      try (apply Other; try discriminate; apply Never; [reflexivity|intros [(? & ? & ? & ? & X & _)|(? & ? & X & _)]; discriminate]).
    - cbn [where_cond]. specialize (IHe q). split.
      + intros (m & q' & X). destruct (where_cond compile primary ty e q) as [[m0 r0] q0]. injection X as _ -> _. apply T_paren, IHe. eauto.
      + intros TL. inversion TL as [|a TLa|x N0 N1 K0]; subst; [|exfalso; eapply N1; reflexivity].
        apply IHe in TLa. destruct TLa as (m & q' & ->). eauto.
    - cbn [where_cond]. specialize (IHe1 q). split.
      + intros (m & q' & X). destruct (where_cond compile primary ty e1 q) as [[m1 r1] q1]. specialize (IHe2 q1).
        destruct (where_cond compile primary ty e2 q1) as [[m2 r2] q2]. destruct r1, r2; try discriminate.
        apply T_and; [apply IHe1|apply IHe2]; eauto.
      + intros TL. inversion TL as [a b TLa TLb| |x N0 N1 K0]; subst; [|exfalso; eapply N0; reflexivity].
        apply IHe1 in TLa. destruct TLa as (m & q' & ->). specialize (IHe2 q'). apply IHe2 in TLb. destruct TLb as (m2 & q2 & ->). eauto.
    - apply Other; try discriminate. cbn [where_cond].
      assert (CO : comparison_op key = true <-> exists op, push_op key = Some op).
      { split; [|intros [op Hop]; apply (push_op_sql key op Hop)]. intros C. unfold comparison_op in C. cbn [existsb] in C.
        repeat (apply orb_true_iff in C; destruct C as [C|C]; [apply text_eqb_spec in C; subst key; eexists; reflexivity|]). discriminate C. }
      destruct (push_op key) as [op|].
      2: { split; [intros (m & q' & X); discriminate|]. intros [(k & a & b & n & X & C & _)|(n & l & X & _)]; [|discriminate].
           injection X as -> -> ->. apply CO in C. destruct C; discriminate. }
      destruct (parse_binary compile primary e1 e2) as [[n v]|] eqn:PB.
      + split; [intros _|eauto]. left. exists key, e1, e2, n. split; [reflexivity|]. split; [apply CO; eauto|].
        unfold parse_binary in PB.
        assert (Right : match e2 with ECol n0 => if primary n0 then if has_column e1 then None else Some (n0, PV (compile e1)) else None | _ => None end = Some (n, v) ->
          primary n = true /\ ((e1 = ECol n /\ has_column e2 = false) \/ (e2 = ECol n /\ has_column e1 = false))).
        { intros Q. destruct e2; try discriminate Q. destruct (primary name) eqn:Pn; [|discriminate Q]. destruct (has_column e1) eqn:HC; [discriminate Q|].
          injection Q as <- _. auto. }
        destruct e1; try (apply Right; exact PB). clear Right.
        destruct (primary name) eqn:Pn; try discriminate PB. destruct (has_column e2) eqn:HC; try discriminate PB. injection PB as <- _.
        split; [exact Pn|left; auto].
      + split; [intros (m & q' & X); discriminate|].
        intros [(k & a & b & n & X & C & Pn & D)|(n & l & X & _)]; [|discriminate]. injection X as -> -> ->.
        exfalso. unfold parse_binary in PB. destruct D as [[-> HC]|[-> HC]]; [rewrite Pn, HC in PB; discriminate|].
        destruct a; cbn [has_column] in HC; try discriminate HC; rewrite Pn in PB; cbn [has_column] in PB; try rewrite HC in PB; discriminate.
    - apply Other; try discriminate. cbn [where_cond]. unfold parse_in.
      destruct e; try (split; [intros (m & q' & X); discriminate|intros [(? & ? & ? & ? & X & _)|(? & ? & X & _)]; discriminate]).
      destruct (primary name) eqn:Pn.
      + split; [intros _; right; eauto|eauto].
      + split; [intros (m & q' & X); discriminate|intros [(? & ? & ? & ? & X & _)|(n & l0 & X & P)]; [discriminate|]]. injection X as -> ->. congruence. }
  rewrite <- (W e []). destruct (where_cond compile primary ty e []) as [[m r] q]. destruct r.
  - split; [intros (? & X); discriminate|intros (? & ? & X); discriminate].
  - split; eauto.
Qed.
Print Assumptions delete_accepted.

(** ** Where the property fails.  [only k v]: the source row with field k = v, the others NULL. *)
Definition only (k : text) (v : val) (n : text) : val := if text_eqb n k then v else VNone.
Definition everything (_ : text) : bool := true.
Definition same_name (n : text) : text := n.
Definition kept (field row : text -> val) (ty : text -> text) (e : expr) : bool :=
  select_keeps fr0 id0 no_ext no_lib field row (compile_where (compile fr0 id0 no_ext) everything ty e).
Definition deleted (field : text -> val) (ty : text -> text) (e : expr) : option bool :=
  match compile_delete (compile fr0 id0 no_ext) everything ty (Some e) with
  | Ok q => Some (source_keeps fr0 id0 no_ext no_lib field q)
  | Err _ => None
  end.
Definition is_true (row : text -> val) (e : expr) : bool :=
  match truth num_text (sem num_text (sql_fn fr0 id0 no_ext no_lib) row e) with Some true => true | _ => false end.

(** WHERE 5 > a is pushed as a > 5: the row a = 7 is returned, and deleted by DELETE; a = 3 is not. *)
Theorem reversed_comparison_refuted :
  let e := EBin (t "gt") (EConst (VInt 5)) (ECol (t "a")) in
  let r7 := only (t "a") (VInt 7) in let r3 := only (t "a") (VInt 3) in
  is_true r7 e = false /\ kept r7 r7 same_name e = true /\ deleted r7 same_name e = Some true /\
  is_true r3 e = true /\ kept r3 r3 same_name e = false /\ deleted r3 same_name e = Some false.
Proof. repeat split. Qed.
(** WHERE a IN (b): the column among the items is pushed too and is not the row's b. *)
Theorem in_column_refuted :
  let e := EIn (ECol (t "a")) [ECol (t "b")] in
  let r := fun _ : text => VInt 5 in
  is_true r e = true /\ kept r r same_name e = false /\ deleted r same_name e = Some false.
Proof. repeat split. Qed.
(** WHERE CAST(a AS SIGNED) = 5 compares the unconverted field: parse_column names the pushed field
    without the conversion (compiler.py:2651-2653, 2681-2683). *)
Theorem cast_condition_refuted :
  let e := EBin (t "eq") (ECol (t "cast(a)")) (EConst (VInt 5)) in
  let ty n := if text_eqb n (t "cast(a)") then t "a" else n in
  let field := only (t "a") (VStr (t "5abc")) in let row := only (t "cast(a)") (VInt 5) in
  is_true row e = true /\ kept field row ty e = false.
Proof. repeat split. Qed.
(** WHERE `a[int]` > 3 AND a < 5: the second condition is moved over the first one, which is lost; the
    row a = 1 is returned, and deleted by DELETE. *)
Theorem typed_column_refuted :
  let e := EAnd (EBin (t "gt") (ECol (t "a[int]")) (EConst (VInt 3))) (EBin (t "lt") (ECol (t "a")) (EConst (VInt 5))) in
  let ty n := if text_eqb n (t "a[int]") then t "a|int" else n in
  let field := only (t "a") (VInt 1) in let row := fun _ : text => VInt 1 in
  is_true row e = false /\ kept field row ty e = true /\ deleted field ty e = Some true.
Proof. repeat split. Qed.
Print Assumptions typed_column_refuted.

(** The hypotheses of [where_pushdown] are met by a clause that is partly pushed. *)
Example where_case :
  let e := EAnd (EParen (EAnd (EBin (t "gt") (ECol (t "a")) (EConst (VInt 3))) (EOr a_is_1 b_is_5)))
                (EAnd (EIn (ECol (t "b")) [EConst (VInt 5); EConst (VInt 6)]) (EBin (t "gt") (ECol (t "a")) (EConst (VInt 4)))) in
  cond e /\ top_level (fun x => column_left x /\ constant_items (sem num_text (sql_fn fr0 id0 no_ext no_lib)) x) e /\
  let r v n := if text_eqb n (t "a") then VInt v else VInt 5 in
  kept (r 5) (r 5) same_name e = true /\ kept (r 4) (r 4) same_name e = false /\
  (exists q v, compile_where (compile fr0 id0 no_ext) everything same_name e = (q, Some v) /\ map fst q = [t "b"; t "a|int"]).
Proof.
  cbv zeta. split; [|split].
  - assert (X : forall k a v, comparison_op k = true -> cond (EBin k (ECol a) (EConst v))) by (intros; apply C_bool; [repeat constructor|apply B_cmp; assumption]).
    apply C_and; [apply C_paren, C_and; [apply X; reflexivity|apply C_or; apply X; reflexivity]|].
    apply C_and; [|apply X; reflexivity]. apply C_bool; [|apply B_in]. apply X_in; [constructor|discriminate|repeat constructor].
  - assert (L : forall k a v, top_level (fun x => column_left x /\ constant_items (sem num_text (sql_fn fr0 id0 no_ext no_lib)) x) (EBin k (ECol a) (EConst v))).
    { intros. apply T_leaf; [discriminate|discriminate|]. split; [intros ? ? ? X; discriminate|intros ? ? X; discriminate]. }
    apply T_and; [apply T_paren, T_and; [apply L|]|apply T_and; [|apply L]].
    + apply T_leaf; [discriminate|discriminate|]. split; [intros ? ? ? X; discriminate|intros ? ? X; discriminate].
    + apply T_leaf; [discriminate|discriminate|]. split; [intros ? ? ? X; discriminate|].
      intros n l X y I r r'. injection X as <- <-. destruct I as [<-|[<-|[]]]; reflexivity.
  - split; [reflexivity|]. split; [reflexivity|]. eexists _, _. split; reflexivity.
Qed.

(** Property theorems C11-C16 and C43 (comparison, IN, failure, arithmetic, bits, extrema, rounding).
    [sql1 f], [sql2 f], [sqln f] are what the query evaluates: the function behind the guard of
    mysql_calculater.py. *)
From Coq Require Import SpecFloat.
From Verif Require Import Base PyVal Utils_Model Calc_Model Calc_Proofs.
Open Scope Z_scope.

Definition bit (b : bool) : val := VInt (if b then 1 else 0).
Definition one_of_bits (v : val) : Prop := v = VInt 0 \/ v = VInt 1.

(** ** C11 *)

(** = and <> are NULL exactly when an operand is NULL, otherwise 0 or 1 and opposite. *)
Theorem compare_eq_null : forall frepr a b,
  let eq := sql2 (mysql_eq frepr) a b in let ne := sql2 (mysql_neq frepr) a b in
  (eq = VNone <-> a = VNone \/ b = VNone) /\ (ne = VNone <-> a = VNone \/ b = VNone) /\
  (eq = VNone \/ (eq = VInt 1 /\ ne = VInt 0) \/ (eq = VInt 0 /\ ne = VInt 1)).
Proof.
  intros frepr a b. cbv zeta. rewrite !sql2_eq. unfold mysql_eq, mysql_neq. rewrite !equ_coerced.
  assert (N : coerced frepr a b = None <-> a = VNone \/ b = VNone).
  { unfold coerced. destruct a, b; cbn; try (split; [discriminate|intros [K|K]; discriminate]);
      try (split; auto; fail);
      match goal with |- context [match ?q with Ok _ => _ | Err _ => _ end] => destruct q end;
      (split; [discriminate|intros [K|K]; discriminate]). }
  destruct (coerced frepr a b) as [[x y]|].
  - cbn [guarded]. destruct (pyeq x y); cbn; (split; [|split]); try (split; [discriminate|intro K; apply N in K; discriminate]); auto.
  - cbn. split; [|split]; auto; rewrite <- N; tauto.
Qed.
Print Assumptions compare_eq_null.

(** The six operators describe one and the same comparison outcome: less, equal, greater or
    unordered (NaN); or the operands do not compare at all, and then <, <=, >, >= are NULL and = is 0. *)
Theorem compare_consistent : forall frepr a b, a <> VNone -> b <> VNone ->
  let eq := sql2 (mysql_eq frepr) a b in let ne := sql2 (mysql_neq frepr) a b in
  let lt := sql2 (mysql_lt frepr) a b in let le := sql2 (mysql_lte frepr) a b in
  let gt := sql2 (mysql_gt frepr) a b in let ge := sql2 (mysql_gte frepr) a b in
  (lt = VNone /\ le = VNone /\ gt = VNone /\ ge = VNone /\ eq = VInt 0 /\ ne = VInt 1) \/
  (lt = VInt 1 /\ le = VInt 1 /\ gt = VInt 0 /\ ge = VInt 0 /\ eq = VInt 0 /\ ne = VInt 1) \/
  (lt = VInt 0 /\ le = VInt 1 /\ gt = VInt 0 /\ ge = VInt 1 /\ eq = VInt 1 /\ ne = VInt 0) \/
  (lt = VInt 0 /\ le = VInt 0 /\ gt = VInt 1 /\ ge = VInt 1 /\ eq = VInt 0 /\ ne = VInt 1) \/
  (lt = VInt 0 /\ le = VInt 0 /\ gt = VInt 0 /\ ge = VInt 0 /\ eq = VInt 0 /\ ne = VInt 1).
Proof.
  intros frepr a b Ha Hb. cbv zeta. rewrite !sql2_eq.
  unfold mysql_eq, mysql_neq. rewrite !equ_coerced.
  assert (G := ord_coerced frepr).
  unfold mysql_lt, mysql_lte, mysql_gt, mysql_gte.
  rewrite (G (fun c => match c with Some Lt => true | _ => false end) a b : mysql_ord frepr pylt a b = _).
  rewrite (G (fun c => match c with Some Lt | Some Eq => true | _ => false end) a b : mysql_ord frepr pyle a b = _).
  rewrite (G (fun c => match c with Some Gt => true | _ => false end) a b : mysql_ord frepr pygt a b = _).
  rewrite (G (fun c => match c with Some Gt | Some Eq => true | _ => false end) a b : mysql_ord frepr pyge a b = _).
  clear G.
  assert (N : exists x y, coerced frepr a b = Some (x, y) /\ (x <> VNone \/ y <> VNone)).
  { unfold coerced. 
    assert (is_none a = false) as -> by (destruct a; cbn; congruence).
    assert (is_none b = false) as -> by (destruct b; cbn; congruence). cbn [orb].
    destruct (same_class a b); [eauto|]. destruct (is_number a).
    - destruct (is_number b); [eauto|]. destruct (ensure_number b); eauto.
    - destruct (is_str a); [|eauto]. destruct (ensure_str frepr b); eauto. }
  destruct N as (x & y & -> & Hxy). unfold op_res, cmp_op.
  assert (P : pyeq x y = match pycmp x y with Ok (Some Eq) => true | _ => false end).
  { destruct x, y; try reflexivity. destruct Hxy; congruence. }
  rewrite P. destruct (pycmp x y) as [[[]|]|e]; cbn; intuition.
Qed.
Print Assumptions compare_consistent.

(** On integers the operators are the mathematical relations. *)
Theorem compare_integers : forall frepr x y,
  sql2 (mysql_eq frepr) (VInt x) (VInt y) = bit (x =? y) /\
  sql2 (mysql_neq frepr) (VInt x) (VInt y) = bit (negb (x =? y)) /\
  sql2 (mysql_lt frepr) (VInt x) (VInt y) = bit (x <? y) /\
  sql2 (mysql_lte frepr) (VInt x) (VInt y) = bit (x <=? y) /\
  sql2 (mysql_gt frepr) (VInt x) (VInt y) = bit (y <? x) /\
  sql2 (mysql_gte frepr) (VInt x) (VInt y) = bit (y <=? x).
Proof.
  intros frepr x y.
  assert (C : pycmp (VInt x) (VInt y) = Ok (Some (x ?= y))).
  { cbn. rewrite !Z.mul_1_r. reflexivity. }
  assert (E : pyeq (VInt x) (VInt y) = match x ?= y with Eq => true | _ => false end).
  { unfold pyeq. rewrite C. reflexivity. }
  rewrite !sql2_eq. unfold mysql_eq, mysql_neq, mysql_equ, mysql_lt, mysql_lte, mysql_gt, mysql_gte, mysql_ord, pylt, pyle, pygt, pyge.
  cbn [same_class is_none]. rewrite C, E. cbn [bind try_ guarded].
  unfold bit, b2v. rewrite (Z.eqb_compare x y), (Z.ltb_compare x y), (Z.leb_compare x y).
  rewrite (Z.ltb_compare y x), (Z.leb_compare y x), (Z.compare_antisym x y).
  destruct (x ?= y); cbn; intuition.
Qed.
Print Assumptions compare_integers.

(** On texts: equality of the texts and the lexicographic order of code points. *)
Inductive lex_lt : text -> text -> Prop :=
| lex_nil : forall c s, lex_lt [] (c :: s)
| lex_head : forall c d s s', (c < d)%N -> lex_lt (c :: s) (d :: s')
| lex_tail : forall c s s', lex_lt s s' -> lex_lt (c :: s) (c :: s').
Lemma tcmp_lex : forall a b, tcmp a b = Lt <-> lex_lt a b.
Proof.
  induction a as [|c a IH]; destruct b as [|d b]; cbn.
  - split; [discriminate|]. intro K; inversion K.
  - split; [intros _; constructor|reflexivity].
  - split; [discriminate|]. intro K; inversion K.
  - destruct (N.compare c d) eqn:E.
    + apply N.compare_eq in E. subst d. rewrite IH. split; [apply lex_tail|].
      intro K; inversion K; subst; auto. lia.
    + split; auto. intros _. apply lex_head. exact E.
    + split; [discriminate|]. intro K; inversion K; subst.
      * rewrite N.compare_gt_iff in E. lia.
      * rewrite N.compare_refl in E. discriminate.
Qed.

Theorem compare_texts : forall frepr x y,
  (sql2 (mysql_eq frepr) (VStr x) (VStr y) = VInt 1 <-> x = y) /\
  (sql2 (mysql_lt frepr) (VStr x) (VStr y) = VInt 1 <-> lex_lt x y) /\
  (sql2 (mysql_gt frepr) (VStr x) (VStr y) = VInt 1 <-> lex_lt y x).
Proof.
  intros frepr x y. rewrite !sql2_eq.
  unfold mysql_eq, mysql_equ, mysql_lt, mysql_gt, mysql_ord, pylt, pygt, pyeq.
  cbn [same_class is_none pycmp num_of bind try_ guarded xorb].
  rewrite <- tcmp_eq, <- !tcmp_lex, (tcmp_sym x y).
  destruct (tcmp x y); unfold b2v; cbn; intuition congruence.
Qed.
Print Assumptions compare_texts.

(** = is symmetric, and < is the converse of >, for operands of one kind (both numbers, both texts,
    both dates, ...).  For mixed kinds it is not: see below. *)
Theorem compare_symmetric : forall frepr a b,
  same_class a b = true \/ (is_number a = true /\ is_number b = true) ->
  sql2 (mysql_eq frepr) a b = sql2 (mysql_eq frepr) b a /\
  sql2 (mysql_lt frepr) a b = sql2 (mysql_gt frepr) b a /\
  sql2 (mysql_lte frepr) a b = sql2 (mysql_gte frepr) b a.
Proof.
  intros frepr a b H. rewrite !sql2_eq. unfold mysql_eq. rewrite !equ_coerced.
  assert (G := ord_coerced frepr).
  unfold mysql_lt, mysql_lte, mysql_gt, mysql_gte.
  rewrite (G (fun c => match c with Some Lt => true | _ => false end) a b : mysql_ord frepr pylt a b = _).
  rewrite (G (fun c => match c with Some Lt | Some Eq => true | _ => false end) a b : mysql_ord frepr pyle a b = _).
  rewrite (G (fun c => match c with Some Gt => true | _ => false end) b a : mysql_ord frepr pygt b a = _).
  rewrite (G (fun c => match c with Some Gt | Some Eq => true | _ => false end) b a : mysql_ord frepr pyge b a = _).
  clear G.
  destruct (is_none a) eqn:Na.
  - destruct a; try discriminate. destruct b, H as [H|[H1 H2]]; try discriminate. auto.
  - assert (Nb : is_none b = false).
    { destruct b; auto. destruct a, H as [H|[H1 H2]]; discriminate. }
    assert (Ca : coerced frepr a b = Some (a, b)).
    { unfold coerced. rewrite Na, Nb. cbn [orb]. destruct (same_class a b); auto.
      destruct H as [H|[-> ->]]; [discriminate|reflexivity]. }
    assert (Cb : coerced frepr b a = Some (b, a)).
    { unfold coerced. rewrite Na, Nb. cbn [orb]. destruct (same_class b a) eqn:S; auto.
      destruct H as [H|[-> ->]]; [destruct a, b; discriminate|reflexivity]. }
    rewrite Ca, Cb. cbn [guarded xorb]. unfold op_res, cmp_op. rewrite (pycmp_sym a b).
    assert (P : forall x y, is_none x = false -> pyeq x y = match pycmp x y with Ok (Some Eq) => true | _ => false end).
    { intros x y K. destruct x, y; try discriminate; reflexivity. }
    rewrite (P a b Na), (P b a Nb), (pycmp_sym a b).
    destruct (pycmp a b) as [[[]|]|e]; cbn; auto.
Qed.
Print Assumptions compare_symmetric.

Example compare_mixed_numbers : forall frepr,
  sql2 (mysql_eq frepr) (VInt 1) (VFloat (S754_finite false 1 0)) = VInt 1 /\
  sql2 (mysql_eq frepr) (VStr []) (VNone) = VNone.
Proof. split; reflexivity. Qed.

(** C11 is false of the code across kinds: = is not symmetric (1 = '01' is 1, '01' = 1 is 0) and
    '10' > 9 compares texts. *)
Theorem compare_mixed_refuted : forall frepr,
  sql2 (mysql_eq frepr) (VInt 1) (VStr (t "01")) = VInt 1 /\
  sql2 (mysql_eq frepr) (VStr (t "01")) (VInt 1) = VInt 0 /\
  sql2 (mysql_gt frepr) (VStr (t "10")) (VInt 9) = VInt 0 /\
  sql2 (mysql_lt frepr) (VInt 9) (VStr (t "10")) = VInt 1.
Proof. intro. repeat split; vm_compute; reflexivity. Qed.
Print Assumptions compare_mixed_refuted.

(** ** C12: x IN (list), in terms of the = operator. *)
Theorem in_three_valued : forall frepr x l,
  let eq v := sql2 (mysql_eq frepr) x v in
  let r := guarded (mysql_in frepr x l) in
  (x = VNone -> r = VNone) /\
  (x <> VNone -> (exists v, In v l /\ eq v = VInt 1) -> r = VInt 1) /\
  (x <> VNone -> (forall v, In v l -> eq v <> VInt 1) -> In VNone l -> r = VNone) /\
  (x <> VNone -> (forall v, In v l -> eq v <> VInt 1) -> ~ In VNone l -> r = VInt 0) /\
  (x <> VNone -> l = [] -> r = VInt 0).
Proof.
  intros frepr x l. cbv zeta.
  assert (G : x <> VNone -> forall m h,
     ((exists v, In v m /\ sql2 (mysql_eq frepr) x v = VInt 1) -> in_loop frepr x m h = Ok (VInt 1)) /\
     ((forall v, In v m -> sql2 (mysql_eq frepr) x v <> VInt 1) ->
        in_loop frepr x m h = Ok (if h || existsb is_none m then VNone else VInt 0))).
  { intros Hx. induction m as [|v l0 IH]; intros h; split.
    - intros (v & [] & _).
    - intros _. cbn. rewrite orb_false_r. reflexivity.
    - intros (w & [<-|K] & E).
      + cbn [in_loop]. destruct (is_none v) eqn:Nv.
        { destruct v; try discriminate. destruct (compare_eq_null frepr x VNone) as (A & _).
          rewrite (proj2 A) in E by auto. discriminate. }
        rewrite sql2_eq in E. destruct (eq_never_fails frepr x v) as [r Hr]. rewrite Hr in *. cbn in E. subst r. reflexivity.
      + assert (Q : exists u, In u l0 /\ sql2 (mysql_eq frepr) x u = VInt 1) by eauto.
        cbn [in_loop]. destruct (is_none v); [apply IH; exact Q|].
        destruct (eq_never_fails frepr x v) as [r Hr]. rewrite Hr. cbn [bind].
        destruct (truthy r); [reflexivity|apply IH; exact Q].
    - intros Hall. assert (Q : forall u, In u l0 -> sql2 (mysql_eq frepr) x u <> VInt 1) by (intros; apply Hall; right; auto).
      cbn [in_loop existsb]. destruct (is_none v) eqn:Nv.
      + rewrite (proj2 (IH true) Q). cbn. rewrite orb_true_r. reflexivity.
      + destruct (compare_eq_null frepr x v) as (A & _ & [B|[[B _]|[B _]]]).
        * elimtype False. apply A in B. destruct B; [congruence|subst; discriminate].
        * elim (Hall v (or_introl eq_refl) B).
        * rewrite sql2_eq in B. destruct (eq_never_fails frepr x v) as [r Hr]. rewrite Hr in *. cbn [guarded] in B. subst r.
          cbn [bind truthy Z.eqb negb]. rewrite (proj2 (IH h) Q). reflexivity. }
  unfold mysql_in. split; [intros ->; reflexivity|].
  assert (Ex : forall l, In VNone l <-> existsb is_none l = true).
  { intro m. rewrite existsb_exists. split.
    - intro K. exists VNone. auto.
    - intros (v & K1 & K2). destruct v; try discriminate. exact K1. }
  split; [|split; [|split]]; intro Hx; (assert (is_none x = false) as -> by (destruct x; cbn; congruence)); intros.
  - rewrite (proj1 (G Hx l false)); auto.
  - rewrite (proj2 (G Hx l false)) by auto. apply Ex in H0. rewrite H0. reflexivity.
  - rewrite (proj2 (G Hx l false)) by auto. destruct (existsb is_none l) eqn:E; auto. apply Ex in E. tauto.
  - subst l. reflexivity.
Qed.
Print Assumptions in_three_valued.

Example in_examples : forall frepr,
  mysql_in frepr (VInt 3) [VInt 1; VNone; VStr (t "3")] = Ok (VInt 1) /\
  mysql_in frepr (VInt 3) [VInt 1; VNone] = Ok VNone /\ mysql_in frepr (VInt 3) [VInt 1] = Ok (VInt 0).
Proof. intro. repeat split; vm_compute; reflexivity. Qed.

(** ** C13 *)

(** A call with an accepted number of arguments never raises, whatever the function does. *)
Theorem call_never_aborts : forall argcount varnames f args,
  (argcount = varnames -> argcount <= 4 -> length args <= argcount)%nat ->
  exists v, call_func (dispatch argcount varnames) f args = Ok v.
Proof.
  intros ac vn f args H. unfold dispatch, call_func.
  destruct ((ac =? vn)%nat && (ac <=? 4)%nat) eqn:E; [|eauto].
  apply andb_true_iff in E as [E1 E2]. apply Nat.eqb_eq in E1. apply Nat.leb_le in E2.
  assert (L := H E1 E2). apply Nat.ltb_ge in L. rewrite L. eauto.
Qed.
Print Assumptions call_never_aborts.

(** A failure inside the function gives NULL; a success gives the function's value. *)
Theorem call_result : forall argcount varnames f args v,
  call_func (dispatch argcount varnames) f args = Ok v ->
  exists args', (exists k, args' = args ++ repeat VNone k) /\
    match f args' with Ok w => v = w | Err _ => v = VNone end.
Proof.
  intros ac vn f args v. unfold call_func. destruct (dispatch ac vn) as [n|].
  - destruct (n <? length args)%nat; [discriminate|]. intro K. injection K as <-.
    exists (args ++ repeat VNone (n - length args)). split; [eauto|].
    destruct (f (args ++ repeat VNone (n - length args))); reflexivity.
  - intro K. injection K as <-. exists args. split; [exists 0%nat; cbn; rewrite app_nil_r; reflexivity|].
    destruct (f args); reflexivity.
Qed.
Print Assumptions call_result.

(** C13 is false of the code when a fixed-arity function gets too many arguments: the call raises. *)
Theorem too_many_arguments_refuted : forall f n args, (n <= 4)%nat -> (n < length args)%nat ->
  call_func (dispatch n n) f args = Err TypeError.
Proof.
  intros f n args H1 H2. unfold dispatch. rewrite Nat.eqb_refl. apply Nat.leb_le in H1. rewrite H1.
  cbn [andb call_func]. apply Nat.ltb_lt in H2. rewrite H2. reflexivity.
Qed.
Print Assumptions too_many_arguments_refuted.

(** ** C14 *)
Theorem arithmetic_null : forall op a b, In op [mysql_add; mysql_sub; mysql_mul; mysql_div; mysql_mod] ->
  a = VNone \/ b = VNone -> sql2 op a b = VNone.
Proof.
  intros op a b H K. rewrite sql2_eq. 
  repeat (destruct H as [<-|H]; [destruct K; subst; [reflexivity|destruct a; reflexivity]|]). destruct H.
Qed.
Print Assumptions arithmetic_null.

Theorem arithmetic_integers : forall x y,
  sql2 mysql_add (VInt x) (VInt y) = VInt (x + y) /\
  sql2 mysql_sub (VInt x) (VInt y) = VInt (x - y) /\
  sql2 mysql_mul (VInt x) (VInt y) = VInt (x * y) /\
  (y <> 0 -> exists q r, sql2 mysql_mod (VInt x) (VInt y) = VInt r /\ x = y * q + r /\ Z.abs r < Z.abs y).
Proof.
  intros x y. repeat split. intro H. exists (x / y), (x mod y). split.
  - rewrite sql2_eq. cbn. destruct (y =? 0) eqn:E; [apply Z.eqb_eq in E; congruence|reflexivity].
  - split; [apply Z.div_mod; auto|].
    destruct (Z.lt_trichotomy y 0) as [K|[K|K]]; [|congruence|].
    + assert (B := Z.mod_neg_bound x y K). lia.
    + assert (B := Z.mod_pos_bound x y K). lia.
Qed.
Print Assumptions arithmetic_integers.

(** / and % are NULL whenever the divisor is zero (as integer, bool, float or text). *)
Theorem division_by_zero : forall a b, pyeq (match ensure_number b with Ok v => v | Err _ => VNone end) (VInt 0) = true ->
  sql2 mysql_div a b = VNone /\ sql2 mysql_mod a b = VNone.
Proof.
  intros a b H. rewrite !sql2_eq. unfold mysql_div, mysql_mod, arith2.
  destruct (is_none a || is_none b); [auto|].
  destruct (ensure_number a) as [x|]; [|auto]. destruct (ensure_number b) as [y|]; [|auto]. cbn [bind].
  assert (Y : as_int y = Some 0 \/ exists s, y = VFloat (S754_zero s)).
  { unfold pyeq in H. destruct y as [|b0|z|f| | | |]; cbn in H; try discriminate.
    - destruct b0; [discriminate|auto].
    - cbn [Z.min] in H. rewrite Z.mul_1_r in H. destruct z; try discriminate. auto.
    - destruct f as [s|s| |s m e]; cbn in H; try (destruct s; discriminate); try discriminate; eauto.
      exfalso. assert (P : 0 < 2 ^ (e - Z.min e 0)) by (apply Z.pow_pos_nonneg; lia).
      set (k := 2 ^ (e - Z.min e 0)) in *. clearbody k.
      destruct k as [|k|k]; try lia. destruct s; cbn in H; discriminate. }
  destruct Y as [Y|[s ->]].
  - unfold py_div, py_mod. destruct y as [|b0|z|f| | | |]; cbn in Y; try discriminate.
    + destruct b0; [discriminate|]. cbn. destruct (as_int x); [auto|]. destruct (as_float x); cbn; auto.
    + injection Y as ->. cbn. destruct (as_int x); [auto|]. destruct (as_float x); cbn; auto.
  - unfold py_div, py_mod. cbn [as_int as_float bind].
    destruct (as_int x); destruct (as_float x); cbn; auto.
Qed.
Print Assumptions division_by_zero.

Example division_by_zero_ex :
  sql2 mysql_div (VInt 7) (VStr (t "0.0")) = VNone /\ sql2 mysql_mod (VInt 7) (VBool false) = VNone /\
  sql2 mysql_div (VInt 7) (VInt 2) = VFloat (decimal_float false 35 (-1)).
Proof. repeat split; vm_compute; reflexivity. Qed.

(** The sign of % is that of the divisor (Python), not of the dividend as in MySQL. *)
Theorem mod_sign_refuted : sql2 mysql_mod (VInt (-5)) (VInt 3) = VInt 1.
Proof. reflexivity. Qed.
Print Assumptions mod_sign_refuted.

(** ** C15 *)
Theorem bit_operations : forall x y,
  (exists z, sql2 mysql_bitwiseand (VInt x) (VInt y) = VInt z /\ forall i, 0 <= i -> Z.testbit z i = Z.testbit x i && Z.testbit y i) /\
  (exists z, sql2 mysql_bitwiseor (VInt x) (VInt y) = VInt z /\ forall i, 0 <= i -> Z.testbit z i = Z.testbit x i || Z.testbit y i) /\
  (exists z, sql2 mysql_bitwisexor (VInt x) (VInt y) = VInt z /\ forall i, 0 <= i -> Z.testbit z i = xorb (Z.testbit x i) (Z.testbit y i)) /\
  (sql1 mysql_bitwisenot (VInt x) = VInt (- x - 1)) /\
  (0 <= y -> sql2 mysql_bitwiseleftshift (VInt x) (VInt y) = VInt (x * 2 ^ y) /\
             sql2 mysql_bitwiserightshift (VInt x) (VInt y) = VInt (x / 2 ^ y)) /\
  (y < 0 -> sql2 mysql_bitwiseleftshift (VInt x) (VInt y) = VNone /\
            sql2 mysql_bitwiserightshift (VInt x) (VInt y) = VNone).
Proof.
  intros x y. split; [|split; [|split; [|split; [|split]]]].
  - exists (Z.land x y). split; [reflexivity|]. intros. apply Z.land_spec.
  - exists (Z.lor x y). split; [reflexivity|]. intros. apply Z.lor_spec.
  - exists (Z.lxor x y). split; [reflexivity|]. intros. apply Z.lxor_spec.
  - change (VInt (Z.lnot x) = VInt (- x - 1)). f_equal; unfold Z.lnot; lia.
  - intro H. rewrite !sql2_eq. unfold mysql_bitwiseleftshift, mysql_bitwiserightshift, bit2, py_lshift, py_rshift, py_shift.
    cbn [is_none orb as_int]. assert (E : (y <? 0) = false) by (apply Z.ltb_ge; lia). rewrite E. cbn.
    rewrite <- Z.shiftl_mul_pow2, <- Z.shiftr_div_pow2 by lia. auto.
  - intro H. rewrite !sql2_eq. unfold mysql_bitwiseleftshift, mysql_bitwiserightshift, bit2, py_lshift, py_rshift, py_shift.
    cbn [is_none orb as_int]. assert (E : (y <? 0) = true) by (apply Z.ltb_lt; lia). rewrite E. cbn. rewrite E. auto.
Qed.
Print Assumptions bit_operations.

Theorem bit_null : forall op a b,
  In op [mysql_bitwiseand; mysql_bitwiseor; mysql_bitwisexor; mysql_bitwiseleftshift; mysql_bitwiserightshift] ->
  a = VNone \/ b = VNone -> sql2 op a b = VNone.
Proof.
  intros op a b H K. rewrite sql2_eq.
  repeat (destruct H as [<-|H]; [destruct K; subst; [reflexivity|destruct a; reflexivity]|]). destruct H.
Qed.
Print Assumptions bit_null.

(** Operands that are not integers take part with their integer value (C09). *)
Theorem bit_coerces : forall a b x y, as_int a = None -> ensure_int a = Ok (VInt x) -> ensure_int b = Ok (VInt y) ->
  sql2 mysql_bitwiseand a b = VInt (Z.land x y) /\ sql2 mysql_bitwiseor a b = VInt (Z.lor x y) /\
  sql2 mysql_bitwisexor a b = VInt (Z.lxor x y).
Proof.
  intros a b x y Ha Hx Hy. rewrite !sql2_eq. unfold mysql_bitwiseand, mysql_bitwiseor, mysql_bitwisexor, bit2.
  assert (Na : is_none a = false) by (destruct a; auto; discriminate).
  assert (Nb : is_none b = false) by (destruct b; auto; discriminate).
  rewrite Na, Nb. cbn [orb].
  assert (G : forall zop bop, py_bit zop bop a b = Err TypeError).
  { intros. unfold py_bit. rewrite Ha. destruct a; try discriminate; reflexivity. }
  unfold py_and, py_or, py_xor. rewrite !G. cbn [try_]. rewrite Hx, Hy. auto.
Qed.
Print Assumptions bit_coerces.
Example bit_coerces_ex : sql2 mysql_bitwiseand (VStr (t "12")) (VInt 10) = VInt 8.
Proof. vm_compute. reflexivity. Qed.

(** ** C16 *)
Lemma sqln_eq : forall f args, sqln f args = guarded (f args).
Proof. reflexivity. Qed.

(** NULL among two or more arguments gives NULL. *)
Theorem extremum_null : forall l, In VNone l -> (2 <= length l)%nat ->
  sqln mysql_greatest l = VNone /\ sqln mysql_least l = VNone.
Proof.
  intros l H L. rewrite !sqln_eq. unfold mysql_greatest, mysql_least, extremum.
  destruct l as [|a [|b l]]; [destruct H|cbn in L; lia|].
  destruct (map_res_none _ H) as [e0 E0].
  assert (G : forall f, exists e, py_best (cmp_op f) (a :: b :: l) = Err e).
  { intro f. assert (B : exists e, best (cmp_op f) a (b :: l) = Err e) by (apply best_none; [exact H|congruence]).
    destruct a as [| | | |[|c s]| | |]; exact B. }
  destruct (G (fun c => match c with Some Gt => true | _ => false end)) as [e1 E1].
  destruct (G (fun c => match c with Some Lt => true | _ => false end)) as [e2 E2].
  change (py_best pygt (a :: b :: l) = Err e1) in E1. change (py_best pylt (a :: b :: l) = Err e2) in E2.
  rewrite E1, E2. cbn [try_]. rewrite E0. auto.
Qed.
Print Assumptions extremum_null.

(** For two or more mutually comparable values (all numbers but NaN, or all texts, or all dates, ...)
    GREATEST (LEAST) is one of them and none is greater (less).  [vle]: less or equal in the order of
    the operators of C11. *)
Theorem extremum_correct : forall l, (2 <= length l)%nat ->
  (forall x y, In x l -> In y l -> exists c, pycmp x y = Ok (Some c)) ->
  (In (sqln mysql_greatest l) l /\ forall y, In y l -> vle y (sqln mysql_greatest l)) /\
  (In (sqln mysql_least l) l /\ forall y, In y l -> vle (sqln mysql_least l) y).
Proof.
  intros l L H. rewrite !sqln_eq. unfold mysql_greatest, mysql_least, extremum.
  destruct l as [|a [|b l]]; try (cbn in L; lia).
  destruct (best_gt (b :: l) a H) as (r & Er & Ir & Mr).
  destruct (best_lt (b :: l) a H) as (r' & Er' & Ir' & Mr').
  assert (P : forall op, py_best op (a :: b :: l) = best op a (b :: l)).
  { intro op. destruct a as [| | | |[|c s]| | |]; reflexivity. }
  rewrite !P, Er, Er'. cbn [try_ guarded]. auto.
Qed.
Print Assumptions extremum_correct.

Example extremum_ex :
  sqln mysql_greatest [VInt 3; VFloat (decimal_float false 35 (-1)); VBool true] = VFloat (decimal_float false 35 (-1)) /\
  sqln mysql_least [VStr (t "b"); VStr (t "a")] = VStr (t "a") /\
  sqln mysql_greatest [VInt 3; VStr (t "12px")] = VInt 12.
Proof. repeat split; vm_compute; reflexivity. Qed.

(** numbers that are not NaN are mutually comparable, and so are texts *)
Theorem numbers_comparable : forall x y, is_number x = true -> is_number y = true ->
  x <> VFloat S754_nan -> y <> VFloat S754_nan -> exists c, pycmp x y = Ok (Some c).
Proof.
  intros x y Hx Hy Nx Ny.
  destruct x as [| | |f| | | |], y as [| | |g| | | |]; try discriminate; unfold pycmp; cbn [num_of];
  try (destruct f as [|[]| |]; try congruence); try (destruct g as [|[]| |]; try congruence); cbn [num_of_float ncmp]; eauto.
Qed.
Print Assumptions numbers_comparable.

(** ** C43: FLOOR, CEIL, SIGN, ABS are exact *)
Definition below (z : Z) (n : num) : Prop := ncmp (Fin z 0) n = Some Lt \/ ncmp (Fin z 0) n = Some Eq.
Definition strictly_above (z : Z) (n : num) : Prop := ncmp (Fin z 0) n = Some Gt.

Lemma floor_float_spec : forall f z, floor_float f = Ok z -> below z (num_of_float f) /\ strictly_above (z + 1) (num_of_float f).
Proof.
  intros [s|s| |s m e] z; cbn [floor_float]; intro H; try discriminate.
  - injection H as <-. cbn. unfold below, strictly_above. cbn. auto.
  - injection H as H. cbn [num_of_float]. set (a := if s then Z.neg m else Z.pos m) in *. clearbody a.
    unfold below, strictly_above. destruct (e >=? 0) eqn:E.
    + assert (0 <= e) by (rewrite Z.geb_leb in E; apply Z.leb_le in E; lia).
      rewrite !(ncmp_fin _ 0 a e 0) by lia. rewrite !Z.sub_0_r, Z.pow_0_r, !Z.mul_1_r, H.
      rewrite Z.compare_refl. split; [auto|]. f_equal. apply Z.compare_gt_iff. lia.
    + assert (e < 0) by (rewrite Z.geb_leb in E; apply Z.leb_gt in E; lia).
      rewrite !(ncmp_fin _ 0 a e e) by lia. rewrite !Z.sub_diag, Z.pow_0_r, !Z.mul_1_r, !Z.sub_0_l.
      assert (P : 0 < 2 ^ (- e)) by (apply Z.pow_pos_nonneg; lia).
      assert (D := Z.div_mod a (2 ^ (- e))). assert (B := Z.mod_pos_bound a (2 ^ (- e)) P).
      rewrite H in D. set (p := 2 ^ (- e)) in *. clearbody p. split.
      * destruct (Z.compare_spec (z * p) a); auto. exfalso. lia.
      * f_equal. apply Z.compare_gt_iff. lia.
Qed.

Theorem floor_exact : forall v z, is_number v = true -> sql1 mysql_floor v = VInt z ->
  exists n, num_of v = Some n /\ below z n /\ strictly_above (z + 1) n.
Proof.
  intros v z Hn H. assert (G : guarded (mysql_floor v) = VInt z) by exact H. clear H. revert G.
  destruct v as [|b|x|f| | | |]; try discriminate.
  - intro G. assert (z = b2z b) as -> by (cbn in G; congruence). exists (Fin (b2z b) 0). split; [reflexivity|].
    unfold below, strictly_above. cbn. destruct b; cbn; auto.
  - intro G. assert (z = x) as -> by (cbn in G; congruence). exists (Fin x 0). split; [reflexivity|].
    unfold below, strictly_above. cbn. rewrite !Z.mul_1_r, Z.compare_refl. split; auto. f_equal. apply Z.compare_gt_iff. lia.
  - unfold mysql_floor, unary. cbn [is_none py_floor ensure_number bind].
    destruct (floor_float f) as [y|] eqn:E; cbn [bind try_ guarded]; intro G; [|discriminate].
    injection G as ->. exists (num_of_float f). split; [reflexivity|]. apply floor_float_spec. exact E.
Qed.
Print Assumptions floor_exact.

Lemma ncmp_opp : forall m m' e e', ncmp (Fin (- m) e) (Fin (- m') e') = option_map CompOpp (ncmp (Fin m e) (Fin m' e')).
Proof.
  intros. cbn [ncmp option_map]. f_equal. rewrite !Z.mul_opp_l, Z.compare_opp. apply Z.compare_antisym.
Qed.

Theorem ceil_exact : forall v z, is_number v = true -> sql1 mysql_ceil v = VInt z ->
  exists n, num_of v = Some n /\ (strictly_above z n \/ ncmp (Fin z 0) n = Some Eq) /\ ncmp (Fin (z - 1) 0) n = Some Lt.
Proof.
  intros v z Hn H. assert (G : guarded (mysql_ceil v) = VInt z) by exact H. clear H. revert G.
  destruct v as [|b|x|f| | | |]; try discriminate.
  - intro G. assert (z = b2z b) as -> by (cbn in G; congruence). exists (Fin (b2z b) 0). split; [reflexivity|].
    unfold strictly_above. cbn. destruct b; cbn; auto.
  - intro G. assert (z = x) as -> by (cbn in G; congruence). exists (Fin x 0). split; [reflexivity|].
    unfold strictly_above. cbn. rewrite !Z.mul_1_r, Z.compare_refl. split; auto. f_equal. apply Z.compare_lt_iff. lia.
  - unfold mysql_ceil, unary. cbn [is_none py_ceil ensure_number bind]. unfold ceil_float.
    destruct (floor_float (SFopp f)) as [y|] eqn:E; cbn [bind try_ guarded]; intro G; [|discriminate].
    injection G as <-. exists (num_of_float f). split; [reflexivity|]. apply floor_float_spec in E.
    unfold below, strictly_above in *.
    destruct f as [s|s| |s m e]; cbn [SFopp num_of_float] in *.
    + cbn in E. destruct E as [E1 E2]. cbn. rewrite Z.mul_1_r in *.
      assert (y = 0).
      { destruct (Z.compare_spec y 0); destruct E1 as [E1|E1]; try congruence.
        injection E2 as E2. apply Z.compare_gt_iff in E2. lia. }
      subst y. cbn. auto.
    + destruct s; cbn in E; destruct E as [[E|E] E']; congruence.
    + cbn in E. destruct E as [[E|E] E']; congruence.
    + set (a := if s then Z.neg m else Z.pos m) in *.
      assert (Ea : (if negb s then Z.neg m else Z.pos m) = - a) by (unfold a; destruct s; reflexivity).
      rewrite Ea in E. clearbody a. clear Ea.
      replace (- y - 1) with (- (y + 1)) by ring.
      assert (R : forall k, ncmp (Fin (- k) 0) (Fin a e) = option_map CompOpp (ncmp (Fin k 0) (Fin (- a) e))).
      { intro k. rewrite <- (Z.opp_involutive a) at 1. apply ncmp_opp. }
      rewrite !R. destruct E as [[-> | ->] ->]; cbn; auto.
Qed.
Print Assumptions ceil_exact.

Theorem sign_exact : forall v, is_number v = true -> v <> VFloat S754_nan ->
  exists n c, num_of v = Some n /\ ncmp n (Fin 0 0) = Some c /\
  sql1 mysql_sign v = VInt (match c with Lt => -1 | Eq => 0 | Gt => 1 end).
Proof.
  intros v Hn Hv. destruct (numbers_comparable v (VInt 0) Hn eq_refl Hv ltac:(discriminate)) as [c Hc].
  assert (exists n, num_of v = Some n) as [n En] by (destruct v; try discriminate; cbn; eauto).
  exists n, c. split; auto.
  assert (Hc' : ncmp n (Fin 0 0) = Some c).
  { unfold pycmp in Hc. rewrite En in Hc. cbn [num_of] in Hc. congruence. }
  split; auto. change (guarded (mysql_sign v) = VInt (match c with Lt => -1 | Eq => 0 | Gt => 1 end)).
  unfold mysql_sign, sign_of, pylt. assert (is_none v = false) as -> by (destruct v; try discriminate; reflexivity).
  assert (P : pyeq v (VInt 0) = match c with Eq => true | _ => false end).
  { unfold pyeq. rewrite Hc. destruct v; try discriminate; destruct c; reflexivity. }
  rewrite P, Hc. destruct c; reflexivity.
Qed.
Print Assumptions sign_exact.

Theorem abs_integer : forall z, sql1 mysql_abs (VInt z) = VInt (Z.abs z).
Proof. reflexivity. Qed.
Print Assumptions abs_integer.

Example rounding_ex :
  sql1 mysql_floor (VFloat (decimal_float true 35 (-1))) = VInt (-4) /\
  sql1 mysql_ceil (VFloat (decimal_float true 35 (-1))) = VInt (-3) /\
  sql1 mysql_sign (VFloat (decimal_float true 35 (-1))) = VInt (-1).
Proof. repeat split; vm_compute; reflexivity. Qed.

(** ** NOT, IS NULL, IS NOT NULL *)
Theorem not_three_valued :
  sql1 mysql_not VNone = VNone /\
  forall v, v <> VNone -> sql1 mysql_not v = (if truthy v then VInt 0 else VInt 1).
Proof.
  split; [reflexivity|]. intros v H. unfold sql1, call_func, fun1, mysql_not. cbn.
  destruct v; try congruence; cbn; try reflexivity; match goal with |- context [negb ?b] => destruct b; reflexivity | _ => idtac end;
  destruct (truthy _); reflexivity.
Qed.
Print Assumptions not_three_valued.

(** x IS NULL is 1 exactly for NULL, x IS NOT NULL the opposite; never NULL. *)
Theorem is_null : forall frepr ident v,
  (sql2 (mysql_is frepr ident) v VNone = VInt 1 <-> v = VNone) /\
  (sql2 (mysql_is_not frepr ident) v VNone = VInt 0 <-> v = VNone) /\
  (sql2 (mysql_is frepr ident) v VNone = VInt 1 \/ sql2 (mysql_is frepr ident) v VNone = VInt 0) /\
  (sql2 (mysql_is_not frepr ident) v VNone = VInt 1 \/ sql2 (mysql_is_not frepr ident) v VNone = VInt 0).
Proof. intros frepr ident v. rewrite !sql2_eq. destruct v; cbn; intuition congruence. Qed.
Print Assumptions is_null.

(** C204-C208: the mathematical functions; and the decimal texts of C09, C10 as the nearest doubles. *)
From Coq Require Import Reals Lra SpecFloat.
From Flocq Require Import Core BinarySingleNaN.
From Verif Require Import Base PyVal Utils_Model Utils_Spec Utils_Proofs Calc_Model Calc_Proofs Float_Proofs Math_Model Math_Spec Math_Proofs.
Open Scope Z_scope.

Lemma sql1_eq : forall f a, sql1 f a = match f a with Ok v => v | Err _ => VNone end.
Proof. intros f a. unfold sql1, call_func, dispatch. cbn. destruct (f a); reflexivity. Qed.
Lemma ensure_number_number : forall x, is_number x = true -> ensure_number x = Ok x.
Proof. intros [| | | | | | |] H; try discriminate H; reflexivity. Qed.
Lemma ensure_number_int : forall s z, int_literal s z -> ensure_number (VStr s) = Ok (VInt z).
Proof.
  intros s z L. pose proof (int_of_text_literal s z) as I. apply I in L as E.
  assert (D : has_dot s = false).
  { destruct (has_dot s) eqn:H; [|reflexivity]. exfalso. apply existsb_exists in H as (c & H1 & H2). apply N.eqb_eq in H2. subst c.
    destruct L as (w1 & sg & gs & w2 & -> & W1 & W2 & _ & G & S).
    assert (J : forall gs, Forall digits gs -> In 46%N (join_us gs) -> False).
    { clear. induction gs as [|g gs IH]; cbn; [auto|]. intros F I. inversion F as [|? ? Hg Hgs]; subst.
      assert (Dg : ~ In 46%N g) by (intro K; destruct Hg as [_ Hg]; rewrite Forall_forall in Hg; apply Hg in K; unfold digit in K; lia).
      destruct gs as [|g' gs]; [exact (Dg I)|]. apply in_app_or in I. destruct I as [I|[I|I]]; [exact (Dg I)|discriminate I|exact (IH Hgs I)]. }
    assert (W : forall w, Forall white w -> ~ In 46%N w) by (intros w F K; rewrite Forall_forall in F; apply F in K; unfold white in K; lia).
    apply in_app_or in H1. destruct H1 as [K|K]; [exact (W _ W1 K)|]. apply in_app_or in K. destruct K as [K|K].
    - destruct S as [[[->| ->] _]|[-> _]]; cbn in K; intuition discriminate.
    - apply in_app_or in K. destruct K as [K|K]; [exact (J _ G K)|exact (W _ W2 K)]. }
  unfold ensure_number. assert (truthy (VStr s) = true) as ->.
  { destruct s; [|reflexivity]. discriminate E. }
  cbn [negb]. rewrite D, E. reflexivity.
Qed.
Lemma ensure_number_dec : forall ip fp, digits ip -> digits fp ->
  ensure_number (VStr (ip ++ t "." ++ fp)) = Ok (VFloat (decimal_float false (decval (ip ++ fp)) (- Z.of_nat (length fp)))).
Proof.
  intros ip fp I F. change (ip ++ t "." ++ fp) with (ip ++ 46%N :: fp). unfold ensure_number.
  assert (truthy (VStr (ip ++ 46%N :: fp)) = true) as -> by (destruct ip; reflexivity). cbn [negb].
  assert (has_dot (ip ++ 46%N :: fp) = true) as -> by (apply existsb_exists; exists 46%N; split; [apply in_or_app; right; left; reflexivity|reflexivity]).
  rewrite float_of_text_decimal by assumption. reflexivity.
Qed.

(** C204: a mathematical function [m] of Python is the SQL function: on numbers it is [m], NULL where [m] fails; on the text of an
    integer or of a decimal number it is [m] of that number (the double nearest to it); NULL on NULL. *)
Theorem math_function : forall m,
  (forall x, is_number x = true -> sql1 (mysql_math m) x = match m x with Ok v => v | Err _ => VNone end) /\
  (forall s z, int_literal s z -> sql1 (mysql_math m) (VStr s) = sql1 (mysql_math m) (VInt z)) /\
  (forall ip fp, digits ip -> digits fp -> exists f, rounds f (IZR (decval (ip ++ fp)) * powerRZ 10 (- Z.of_nat (length fp))) /\
     sql1 (mysql_math m) (VStr (ip ++ t "." ++ fp)) = sql1 (mysql_math m) (VFloat f)) /\
  sql1 (mysql_math m) VNone = VNone.
Proof.
  intro m.
  assert (N : forall x, is_number x = true -> sql1 (mysql_math m) x = match m x with Ok v => v | Err _ => VNone end).
  { intros x H. rewrite sql1_eq. unfold mysql_math, unary. destruct (is_none x) eqn:Z; [destruct x; discriminate|].
    rewrite H, (ensure_number_number x H). cbn [bind]. rewrite H. destruct (m x) as [v|e]; reflexivity. }
  assert (S : forall s v, is_number v = true -> ensure_number (VStr s) = Ok v -> sql1 (mysql_math m) (VStr s) = sql1 (mysql_math m) v).
  { intros s v H E. rewrite (N v H), sql1_eq. unfold mysql_math, unary. cbn [is_none is_number]. rewrite E. cbn [try_ bind]. rewrite H. reflexivity. }
  split; [exact N|]. split; [|split].
  - intros s z L. apply S; [reflexivity|]. apply ensure_number_int, L.
  - intros ip fp I F. exists (decimal_float false (decval (ip ++ fp)) (- Z.of_nat (length fp))). split.
    + pose proof (decimal_rounds false (decval (ip ++ fp)) (- Z.of_nat (length fp))) as R. rewrite Rmult_1_l in R. exact R.
    + apply S; [reflexivity|]. apply ensure_number_dec; assumption.
  - reflexivity.
Qed.
(** ... and for two arguments. *)
Theorem math_function2 : forall m,
  (forall x y, is_number x = true -> is_number y = true -> sql2 (mysql_math2 m) x y = match m x y with Ok v => v | Err _ => VNone end) /\
  (forall s z y, int_literal s z -> is_number y = true -> sql2 (mysql_math2 m) (VStr s) y = sql2 (mysql_math2 m) (VInt z) y) /\
  (forall x s z, is_number x = true -> int_literal s z -> sql2 (mysql_math2 m) x (VStr s) = sql2 (mysql_math2 m) x (VInt z)) /\
  (forall x, sql2 (mysql_math2 m) VNone x = VNone /\ sql2 (mysql_math2 m) x VNone = VNone).
Proof.
  intro m.
  assert (N : forall x y, is_number x = true -> is_number y = true -> sql2 (mysql_math2 m) x y = match m x y with Ok v => v | Err _ => VNone end).
  { intros x y H K. rewrite sql2_eq. unfold mysql_math2. destruct (is_none x) eqn:Z; [destruct x; discriminate|]. destruct (is_none y) eqn:Z'; [destruct y; discriminate|].
    cbn [orb]. rewrite H, K, (ensure_number_number x H), (ensure_number_number y K). cbn [bind andb]. rewrite H, K. cbn [andb]. destruct (m x y) as [v|e]; reflexivity. }
  split; [exact N|]. split; [|split].
  - intros s z y L K. rewrite (N (VInt z) y eq_refl K), sql2_eq. unfold mysql_math2. destruct (is_none y) eqn:Z; [destruct y; discriminate|].
    cbn [is_none orb is_number andb]. rewrite (ensure_number_int s z L), (ensure_number_number y K). cbn [try_ bind is_number andb]. rewrite K. reflexivity.
  - intros x s z K L. rewrite (N x (VInt z) K eq_refl), sql2_eq. unfold mysql_math2. destruct (is_none x) eqn:Z; [destruct x; discriminate|].
    cbn [is_none orb is_number andb]. rewrite andb_false_r. rewrite (ensure_number_int s z L), (ensure_number_number x K). cbn [try_ bind is_number]. rewrite K. reflexivity.
  - intro x. split; rewrite sql2_eq; unfold mysql_math2; [reflexivity|]. cbn [is_none]. rewrite orb_true_r. reflexivity.
Qed.

(** C205: SQRT is the correctly rounded root: of every double that is not negative, of every integer that is not negative, NULL below zero. *)
Theorem sqrt_correct :
  (forall x, binary64 x -> finite x -> (0 <= fr x)%R ->
     exists f, sql1 mysql_sqrt (VFloat x) = VFloat f /\ binary64 f /\ finite f /\ fr f = rnd (sqrt (fr x))) /\
  (forall z, 0 <= z -> in_range (IZR z) -> exists f, sql1 mysql_sqrt (VInt z) = VFloat f /\ finite f /\ fr f = rnd (sqrt (rnd (IZR z)))) /\
  (forall x, finite x -> (fr x < 0)%R -> sql1 mysql_sqrt (VFloat x) = VNone) /\
  (forall z, z < 0 -> sql1 mysql_sqrt (VInt z) = VNone).
Proof.
  assert (Neg : forall x, finite x -> (fr x < 0)%R -> py_sqrt (VFloat x) = Err ValueError).
  { intros x F L. destruct x as [s|s| |s m e]; try discriminate F; [unfold fr in L; cbn in L; lra|]. destruct s; [reflexivity|].
    exfalso. assert (0 < fr (S754_finite false m e))%R by (unfold fr, SF2R; apply F2R_gt_0; cbn; lia). lra. }
  split; [|split; [|split]].
  - intros x V F P. destruct (sqrt_rounds x V F P) as (f & E & H). exists f. split; [|exact H].
    rewrite sql1_eq. unfold mysql_sqrt, unary. cbn [is_none]. rewrite E. reflexivity.
  - intros z P R. destruct (float_of_Z_rounds z R) as (g & E & V & F & G).
    assert (P' : (0 <= fr g)%R).
    { rewrite G. rewrite <- (rnd_int 0) by (cbn; lia). apply rnd_mono. apply IZR_le, P. }
    destruct (sqrt_rounds g V F P') as (f & E' & _ & H1 & H2). exists f. split; [|split; [exact H1|rewrite H2, G; reflexivity]].
    rewrite sql1_eq. unfold mysql_sqrt, unary. cbn [is_none]. unfold py_sqrt in *. cbn [as_float bind] in *. rewrite E. cbn [bind]. rewrite E'. reflexivity.
  - intros x F L. rewrite sql1_eq. unfold mysql_sqrt, unary. cbn [is_none ensure_number bind]. rewrite (Neg x F L). reflexivity.
  - intros z L. rewrite sql1_eq. unfold mysql_sqrt, unary. cbn [is_none ensure_number bind]. unfold py_sqrt. cbn [as_float].
    destruct (float_of_Z z) as [f|e] eqn:E; [|reflexivity]. cbn [bind].
    assert (H : match f with S754_finite true _ _ | S754_infinity true => True | _ => False end).
    { unfold float_of_Z in E. destruct z as [|p|p]; try lia. cbn [SpecFloat.binary_normalize] in E.
      rewrite binary_round_equiv in E.
      pose proof (binary_round_correct 53 1024 prec53' prec_emax' mode_NE true p 0) as P. cbv zeta in P.
      destruct P as [V P]. destruct (Rlt_bool _ _).
      - destruct P as (_ & P2 & P3). change prec with 53 in E. change emax with 1024 in E.
        destruct (is_inf _) in E; [discriminate E|]. injection E as <-.
        destruct (BinarySingleNaN.binary_round 53 1024 mode_NE true p 0) as [s|s| |s m ex] eqn:Q; try discriminate P2; cbn in P3; subst s; try exact Logic.I.
        (* a nonzero integer does not round to zero *)
        exfalso. pose proof (binary_round_correct 53 1024 prec53' prec_emax' mode_NE true p 0) as P. cbv zeta in P. rewrite Q in P. destruct P as [_ P].
        destruct (Rlt_bool _ _); [|discriminate P]. destruct P as [P _]. cbn [SF2R cond_Zopp] in P.
        change (round radix2 (SpecFloat.fexp 53 1024) (round_mode mode_NE)) with rnd in P. rewrite F2R_0e in P.
        assert (rnd (IZR (Z.opp (Z.pos p))) <= rnd (IZR (-1)))%R by (apply rnd_mono, IZR_le; lia).
        rewrite (rnd_int (-1)) in H by (cbn; lia). rewrite <- P in H. lra.
      - change prec with 53 in E. change emax with 1024 in E. rewrite P in E. discriminate E. }
    destruct f as [s|[]| |[] m ex]; try contradiction; reflexivity.
Qed.
(** ... exact on squares. *)
Theorem sqrt_square : forall n, 0 <= n -> n * n <= 2 ^ 53 -> exists f, sql1 mysql_sqrt (VInt (n * n)) = VFloat f /\ fr f = IZR n /\ pyeq (VFloat f) (VInt n) = true.
Proof.
  intros n H L. destruct (float_of_Z_is (n * n)) as (g & E & V & F & G); [rewrite Z.abs_eq; nia|].
  assert (P' : (0 <= fr g)%R) by (rewrite G; apply IZR_le; nia).
  destruct (sqrt_rounds g V F P') as (f & E' & H0 & H1 & H2). exists f.
  assert (R : fr f = IZR n).
  { rewrite H2, G, mult_IZR, sqrt_square by (apply IZR_le, H). apply rnd_int. nia. }
  split; [|split; [exact R|]].
  - rewrite sql1_eq. unfold mysql_sqrt, unary. cbn [is_none]. unfold py_sqrt in *. cbn [as_float bind] in *. rewrite E. cbn [bind]. rewrite E'. reflexivity.
  - rewrite (float_is_pycmp f n n); [apply Z.eqb_refl|]. split; [exact H0|]. split; [exact H1|exact R].
Qed.

(** C206: ROUND(x, n) of an integer: itself for n >= 0, otherwise the nearest multiple of 10^-n, of two the one whose quotient is even. *)
Theorem round_integer : forall z n,
  (0 <= n -> sql2 mysql_round (VInt z) (VInt n) = VInt z) /\
  (n < 0 -> exists k, sql2 mysql_round (VInt z) (VInt n) = VInt (k * 10 ^ (- n)) /\ nearest (IZR z * powerRZ 10 n) k).
Proof.
  intros z n. assert (E : sql2 mysql_round (VInt z) (VInt n) = VInt (round_int z n)) by (rewrite sql2_eq; reflexivity).
  rewrite E. unfold round_int. split; intro H.
  - destruct (Z.leb_spec 0 n); [reflexivity|lia].
  - destruct (Z.leb_spec 0 n); [lia|]. exists (half_even z (10 ^ (- n))). split; [reflexivity|]. rewrite ten_pow_neg by lia.
    apply nearest_ratio. apply Z.pow_pos_nonneg; lia.
Qed.
(** C207: ROUND(x, n) of a double is the double nearest to the decimal with n digits nearest to its exact value, NULL when that is out of range. *)
Theorem round_double : forall x n, finite x -> -308 <= n <= 323 -> exists z, nearest (fr x * powerRZ 10 n) z /\
  ((exists f, sql2 mysql_round (VFloat x) (VInt n) = VFloat f /\ finite f /\ fr f = rnd (IZR z * powerRZ 10 (- n))) \/
   (sql2 mysql_round (VFloat x) (VInt n) = VNone /\ ~ in_range (IZR z * powerRZ 10 (- n)))).
Proof.
  intros x n F B. destruct (round_float_spec x n F B) as (z & N & H). exists z. split; [exact N|].
  destruct H as [(f & E & H)|[E H]]; [left; exists f; split; [|exact H]|right; split; [|exact H]];
    rewrite sql2_eq; unfold mysql_round; cbn [is_none orb ensure_number ensure_int bind py_round as_int]; rewrite E; reflexivity.
Qed.
(** ... beyond these numbers of digits it is the number itself, or zero; infinities and NaN are kept. *)
Theorem round_beyond : forall x n,
  (323 < n -> sql2 mysql_round (VFloat x) (VInt n) = VFloat x) /\
  (n < -308 -> finite x -> exists f, sql2 mysql_round (VFloat x) (VInt n) = VFloat f /\ fr f = 0%R) /\
  (~ finite x -> sql2 mysql_round (VFloat x) (VInt n) = VFloat x).
Proof.
  intros x n. rewrite sql2_eq. unfold mysql_round. cbn [is_none orb py_round as_int]. split; [|split].
  - intro H. destruct x as [s|s| |s m e]; try reflexivity. cbn [round_float]. destruct (Z.gtb_spec n 323); [reflexivity|lia].
  - intros H F. destruct x as [s|s| |s m e]; try discriminate F; [exists (S754_zero s); split; reflexivity|].
    cbn [round_float]. destruct (Z.gtb_spec n 323); [lia|]. destruct (Z.ltb_spec n (-308)); [|lia]. exists (S754_zero s). split; reflexivity.
  - intro F. destruct x as [s|s| |s m e]; try reflexivity; exfalso; apply F; reflexivity.
Qed.
(** ... with NULL for NULL and texts read as numbers. *)
Theorem round_text : forall s z r k, int_literal s z -> int_literal r k ->
  sql2 mysql_round (VStr s) (VStr r) = sql2 mysql_round (VInt z) (VInt k) /\
  sql2 mysql_round (VStr s) (VInt k) = sql2 mysql_round (VInt z) (VInt k) /\
  sql2 mysql_round VNone (VInt k) = VNone /\ sql2 mysql_round (VInt z) VNone = VNone.
Proof.
  intros s z r k L M. assert (NE : r <> []) by (destruct r; [apply int_of_text_literal in M; discriminate M|congruence]).
  pose proof (proj1 (ensure_int_text r NE) k M) as EI.
  split; [|split; [|split]].
  - rewrite !sql2_eq. unfold mysql_round. cbn [is_none orb py_round as_int try_]. rewrite (ensure_number_int s z L), EI. reflexivity.
  - rewrite !sql2_eq. unfold mysql_round. cbn [is_none orb py_round as_int try_]. rewrite (ensure_number_int s z L). reflexivity.
  - rewrite sql2_eq. reflexivity.
  - rewrite sql2_eq. reflexivity.
Qed.

(** C208: ROUND(x) and LOG(x) without their second argument are always NULL: the defaults of the Python functions are not used. *)
Theorem round_default_refuted : forall x, sql_round1 x = VNone.
Proof. intro x. unfold sql_round1, call_func, dispatch. cbn. unfold mysql_round. cbn [is_none]. rewrite orb_true_r. reflexivity. Qed.
Theorem log_default_refuted : forall m x, sql_log1 m x = VNone.
Proof.
  intros m x. unfold sql_log1, call_func, dispatch. cbn. unfold mysql_log. destruct (is_none x); [reflexivity|].
  cbn [is_number]. rewrite andb_false_r. cbn [try_]. destruct (ensure_number x) as [v|e]; cbn [bind]; [|reflexivity]. rewrite andb_false_r. reflexivity.
Qed.
(** Halves are rounded to the even neighbour, not away from zero. *)
Theorem round_half_refuted : sql2 mysql_round (VInt 25) (VInt (-1)) = VInt 20 /\
  sql2 mysql_round (VFloat (decimal_float false 25 (-1))) (VInt 0) = VFloat (decimal_float false 2 0).
Proof. split; vm_compute; reflexivity. Qed.

(** C09, C10: a decimal text is the nearest double, in arithmetic and in SET. *)
Theorem decimal_text_nearest : forall ip fp, digits ip -> digits fp -> exists f,
  rounds f (IZR (decval (ip ++ fp)) * powerRZ 10 (- Z.of_nat (length fp))) /\
  ensure_number (VStr (ip ++ t "." ++ fp)) = Ok (VFloat f) /\
  val_of_lit (LDec (decval (ip ++ fp)) (length fp)) = VFloat f.
Proof.
  intros ip fp I F. exists (decimal_float false (decval (ip ++ fp)) (- Z.of_nat (length fp))). split; [|split; [|reflexivity]].
  - pose proof (decimal_rounds false (decval (ip ++ fp)) (- Z.of_nat (length fp))) as R. rewrite Rmult_1_l in R. exact R.
  - apply ensure_number_dec; assumption.
Qed.
Print Assumptions math_function.
Print Assumptions sqrt_correct.
Print Assumptions round_double.
Print Assumptions round_default_refuted.

Example sqrt_example : exists f, sql1 mysql_sqrt (VInt (94906265 * 94906265)) = VFloat f /\ pyeq (VFloat f) (VInt 94906265) = true.
Proof. destruct (sqrt_square 94906265) as (f & E & _ & H); [lia|vm_compute; discriminate|]. exists f. auto. Qed.
Example round_example : sql2 mysql_round (VFloat (decimal_float false 2675 (-3))) (VInt 2) = VFloat (decimal_float false 267 (-2)) /\
  sql2 mysql_round (VFloat (decimal_float true 15 0)) (VInt (-1)) = VFloat (decimal_float true 20 0) /\
  sql2 mysql_round (VStr (t "12.345")) (VStr (t "1")) = VFloat (decimal_float false 123 (-1)) /\
  sql2 mysql_round (VInt (-1250)) (VInt (-2)) = VInt (-1200).
Proof. repeat split; vm_compute; reflexivity. Qed.
Example round_hypotheses : finite (decimal_float false 2675 (-3)) /\ -308 <= 2 <= 323 /\ digits (t "12") /\ digits (t "345").
Proof. split; [vm_compute; reflexivity|]. split; [lia|]. split; (split; [discriminate|repeat constructor; unfold digit; cbn; lia]). Qed.

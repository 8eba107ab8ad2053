(** C14 (floating-point part) and C24 (NTILE into equal buckets). *)
From Coq Require Import Reals Lra SpecFloat.
From Flocq Require Import Core BinarySingleNaN.
From Verif Require Import Base PyVal Agg_Model Calc_Model Float_Proofs Window_Model Window_Spec.
Open Scope Z_scope.

(** ** Arithmetic on floating-point operands: [rounds f x] says that [f] is a binary64 number, the one nearest to
    the real number [x] (ties to even) when that is in range, and an infinity otherwise. *)
Theorem arithmetic_floats_rounded : forall x y, binary64 x -> binary64 y -> finite x -> finite y ->
  (exists f, sql2 mysql_add (VFloat x) (VFloat y) = VFloat f /\ rounds f (fr x + fr y)) /\
  (exists f, sql2 mysql_sub (VFloat x) (VFloat y) = VFloat f /\ rounds f (fr x - fr y)) /\
  (exists f, sql2 mysql_mul (VFloat x) (VFloat y) = VFloat f /\ rounds f (fr x * fr y)) /\
  (fr y <> 0%R -> exists f, sql2 mysql_div (VFloat x) (VFloat y) = VFloat f /\ rounds f (fr x / fr y)).
Proof.
  intros x y Vx Vy Fx Fy. destruct (float_operations_round x y Vx Vy Fx Fy) as (A & B & C & D).
  split; [|split; [|split]]; [eexists; split; [reflexivity|assumption]..|].
  intro N. exists (fdiv x y). split; [|apply D, N].
  assert (is_zero_float y = false) as Z by (destruct y; try discriminate Fy; [cbn in N; lra|reflexivity]).
  unfold sql2, mysql_div, arith2, call_func, dispatch. cbn. rewrite Z. reflexivity.
Qed.

(** The quotient of two integers of any size is the correctly rounded one; NULL when it exceeds the range. *)
Lemma ratio_rounds : forall a b, rounds (ratio_float a b) (IZR a / IZR (Z.pos b)) /\ 
  (is_inf (ratio_float a b) = false -> in_range (IZR a / IZR (Z.pos b))).
Proof.
  intros a b. unfold ratio_float.
  assert (Nb : IZR (Z.pos b) <> 0%R) by (intro E; apply eq_IZR in E; discriminate E).
  assert (G : forall s p, let x := S754_finite s p 0 in let q := (fr x / IZR (Z.pos b))%R in
     rounds (fdiv x (S754_finite false b 0)) q /\ (is_inf (fdiv x (S754_finite false b 0)) = false -> in_range q)).
  { intros s p x q.
    pose proof (Bdiv_correct_aux 53 1024 prec53 prec_emax mode_NE s p 0 false b 0) as P. cbv zeta in P.
    change (round radix2 (SpecFloat.fexp 53 1024) (round_mode mode_NE)) with rnd in P.
    assert (E : fdiv x (S754_finite false b 0) = let '(mz, ez, lz) := SFdiv_core_binary 53 1024 (Zpos p) 0 (Zpos b) 0 in
                           BinarySingleNaN.binary_round_aux 53 1024 mode_NE (xorb s false) mz ez lz).
    { unfold fdiv, x, prec, emax. cbn [SFdiv]. destruct (SFdiv_core_binary 53 1024 (Zpos p) 0 (Zpos b) 0) as [[mz ez] lz].
      apply binary_round_aux_equiv. }
    rewrite <- E in P. destruct P as [V P].
    assert (QE : (F2R (Float radix2 (cond_Zopp s (Z.pos p)) 0) / F2R (Float radix2 (cond_Zopp false (Z.pos b)) 0))%R = q).
    { unfold q, x, fr, SF2R. cbn [cond_Zopp]. rewrite (F2R_0e (Z.pos b)). reflexivity. }
    rewrite QE in P. unfold rounds, in_range.
    destruct (Rlt_bool_spec (Rabs (rnd q)) (bpow radix2 1024)) as [L|L].
    - destruct P as (P1 & P2 & _). split; [|intros _; exact L]. split; [exact V|]. split; [intros _; split; [exact P2|exact P1]|].
      intro; lra.
    - split.
      + split; [exact V|]. split; [intro; lra|]. intros _. exists (xorb s false). exact P.
      + intro I. exfalso. rewrite P in I. discriminate I. }
  destruct a as [|p|p].
  - replace (IZR 0 / IZR (Z.pos b))%R with 0%R by (unfold Rdiv; ring).
    assert (in_range 0) as I by (apply (in_range_int 0); cbn; lia).
    split; [|intros _; exact I]. split; [reflexivity|]. split; [|contradiction]. intros _. split; [reflexivity|].
    symmetry. apply (rnd_int 0). cbn. lia.
  - specialize (G false p). cbv zeta in G. rewrite fr_pos in G. exact G.
  - specialize (G true p). cbv zeta in G. unfold fr, SF2R in G. cbn [cond_Zopp] in G. rewrite F2R_0e in G. exact G.
Qed.
Theorem division_integers_rounded : forall a b, b <> 0 ->
  (in_range (IZR a / IZR b) -> exists f, sql2 mysql_div (VInt a) (VInt b) = VFloat f /\ finite f /\ fr f = rnd (IZR a / IZR b)) /\
  (~ in_range (IZR a / IZR b) -> sql2 mysql_div (VInt a) (VInt b) = VNone).
Proof.
  assert (G : forall a b, exists r, r = ratio_float a b /\ sql2 mysql_div (VInt a) (VInt (Z.pos b)) = (if is_inf r then VNone else VFloat r)
            /\ sql2 mysql_div (VInt (- a)) (VInt (Z.neg b)) = (if is_inf r then VNone else VFloat r)).
  { intros a b. exists (ratio_float a b). split; [reflexivity|]. 
    unfold sql2, mysql_div, arith2, call_func, dispatch. cbn. rewrite Z.opp_involutive. destruct (is_inf (ratio_float a b)); split; reflexivity. }
  intros a b Nb. destruct b as [|b|b]; [contradiction|..].
  - destruct (G a b) as (r & Er & -> & _). destruct (ratio_rounds a b) as ((V & R & I) & K). rewrite <- Er in *. split; intro H.
    + destruct (R H) as [F E]. exists r. assert (is_inf r = false) as -> by (destruct r; try discriminate F; reflexivity). auto.
    + destruct (I H) as [s ->]. reflexivity.
  - destruct (G (- a) b) as (r & Er & _ & E2). rewrite Z.opp_involutive in E2. rewrite E2.
    assert (Q : (IZR a / IZR (Z.neg b) = IZR (- a) / IZR (Z.pos b))%R).
    { change (Z.neg b) with (- Z.pos b). rewrite !opp_IZR. assert (IZR (Z.pos b) <> 0%R) by (intro E; apply eq_IZR in E; discriminate E). field. exact H. }
    rewrite Q. destruct (ratio_rounds (- a) b) as ((V & R & I) & K). rewrite <- Er in *. split; intro H.
    + destruct (R H) as [F E]. exists r. assert (is_inf r = false) as -> by (destruct r; try discriminate F; reflexivity). auto.
    + destruct (I H) as [s ->]. reflexivity.
Qed.
(** ... and it is exact when the quotient is an integer of at most 53 bits. *)
Theorem division_exact : forall q b, b > 0 -> Z.abs q <= 2 ^ 53 ->
  exists f, sql2 mysql_div (VInt (q * b)) (VInt b) = VFloat f /\ fr f = IZR q /\ pyeq (VFloat f) (VInt q) = true.
Proof.
  intros q b Hb Hq. destruct (div_exact q b) as (f & E & I); [lia..|]. exists f.
  unfold sql2, mysql_div, arith2, call_func, dispatch. cbn -[py_div pyeq]. rewrite E. cbn -[pyeq]. split; [reflexivity|].
  split; [apply I|]. rewrite (float_is_pycmp f q q I). apply Z.eqb_refl.
Qed.
Example division_example : sql2 mysql_div (VInt 21) (VInt 7) = VFloat (S754_finite false (3 * 2 ^ 51)%positive (-51)) /\
  binary64 (S754_finite false (3 * 2 ^ 51)%positive (-51)) /\ sql2 mysql_div (VInt (10 ^ 400)) (VInt 3) = VNone.
Proof. repeat split; vm_compute; reflexivity. Qed.

(** ** NTILE into equal buckets: when n divides the number of rows (of fewer than 2^51), NTILE is right. *)
Theorem ntile_even : forall datas i n k, 0 < n -> 0 < k -> Z.of_nat (length datas) = n * k -> Z.of_nat (length datas) <= 2 ^ 51 ->
  (i < length datas)%nat ->
  ntile datas i (One (VInt n)) = Ok (VInt (sql_ntile (Z.of_nat (length datas)) n (Z.of_nat i))).
Proof.
  intros datas i n k Hn Hk Hl Hs Hi. unfold ntile. cbn [wint py_int bind].
  destruct (Z.leb_spec n 0); [lia|]. rewrite Hl. rewrite (Z.mul_comm n k).
  assert (K51 : k <= 2 ^ 51) by nia.
  destruct (div_exact k n Hn) as (f & -> & I); [change (2 ^ 53) with (4 * 2 ^ 51); lia|]. cbn [bind].
  destruct (float_of_Z_is (Z.of_nat i)) as (g & Eg & Ig); [change (2 ^ 53) with (4 * 2 ^ 51); lia|].
  unfold py_div. cbn [as_int as_float]. rewrite Eg. cbn [bind].
  assert (Hz : is_zero_float f = false).
  { destruct I as (_ & F & R). destruct f; try reflexivity. cbn in R. apply eq_IZR in R. lia. }
  rewrite Hz. cbn [bind].
  assert (T : Z_of_float (fdiv g f) = Ok (Z.of_nat i / k)).
  { destruct I as (Vf & Ff & Rf), Ig as (Vg & Fg & Rg).
    destruct (float_operations_round g f Vg Vf Fg Ff) as (_ & _ & _ & D).
    rewrite Rf, Rg in D. assert (Hk0 : IZR k <> 0%R) by (intro E; apply eq_IZR in E; lia). specialize (D Hk0). destruct D as (V & D & _).
    destruct (Z.of_nat i) as [|a|a] eqn:Ei; [|destruct k as [|b|b]; try lia|lia].
    - rewrite Z.div_0_l by lia. apply float_is_int. replace (IZR 0 / IZR k)%R with (IZR 0) in D by (unfold Rdiv; ring).
      destruct (D (in_range_int 0 ltac:(cbn; lia))) as [F R]. split; [exact V|]. split; [exact F|]. rewrite R. apply rnd_int. cbn. lia.
    - destruct (trunc_rnd a b) as [B T]; [change (2 ^ 52) with (2 * 2 ^ 51); lia|]. destruct (D B) as [F R]. apply T; assumption. }
  cbn [py_int]. rewrite T. cbn [bind].
  unfold sql_ntile. rewrite Z_div_mult_full, Z_mod_mult by lia.
  rewrite Z.mul_0_l, Z.sub_0_r, Z.add_0_l. destruct (Z.ltb_spec (Z.of_nat i) 0); [lia|]. reflexivity.
Qed.
Example ntile_even_example : forall r, ntile (repeat r 6) 4 (One (VInt 3)) = Ok (VInt 3).
Proof. reflexivity. Qed.

Print Assumptions arithmetic_floats_rounded. Print Assumptions division_integers_rounded. Print Assumptions division_exact.
Print Assumptions ntile_even.

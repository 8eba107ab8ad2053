From Coq Require Import Reals Lra SpecFloat.
From Flocq Require Import Core BinarySingleNaN.
From Verif Require Import Base PyVal Utils_Model Calc_Model Float_Proofs Math_Model Math_Spec.
Open Scope Z_scope.
#[local] Instance prec53' : Prec_gt_0 53 := eq_refl.
#[local] Instance prec_emax' : Prec_lt_emax 53 1024 := eq_refl.

(** ** Square roots *)
Lemma sqrt_rounds : forall x, binary64 x -> finite x -> (0 <= fr x)%R ->
  exists f, py_sqrt (VFloat x) = Ok (VFloat f) /\ binary64 f /\ finite f /\ fr f = rnd (sqrt (fr x)).
Proof.
  intros x V F P. destruct x as [s|s| |s m e]; try discriminate F.
  - exists (S754_zero s). split; [reflexivity|]. split; [reflexivity|]. split; [reflexivity|].
    cbn. rewrite sqrt_0. symmetry. apply (rnd_int 0). cbn. lia.
  - destruct s.
    + exfalso. rewrite fr_opp in P. assert (0 < fr (S754_finite false m e))%R by (unfold fr, SF2R; apply F2R_gt_0; cbn; lia). lra.
    + exists (SFsqrt prec emax (S754_finite false m e)). split; [reflexivity|].
      pose proof (Bsqrt_correct_aux 53 1024 prec53' prec_emax' mode_NE m e V) as P2. cbv zeta in P2.
      change (round radix2 (SpecFloat.fexp 53 1024) (round_mode mode_NE)) with rnd in P2.
      assert (E : SFsqrt prec emax (S754_finite false m e) = let '(mz, ez, lz) := SFsqrt_core_binary 53 1024 (Zpos m) e in
                         BinarySingleNaN.binary_round_aux 53 1024 mode_NE false mz ez lz).
      { unfold prec, emax. cbn [SFsqrt]. destruct (SFsqrt_core_binary 53 1024 (Zpos m) e) as [[mz ez] lz]. apply binary_round_aux_equiv. }
      rewrite <- E in P2. destruct P2 as (P1 & P2 & P3 & _). auto.
Qed.

(** ** Nearest integers *)
Lemma half_even_spec : forall a d, 0 < d -> 2 * Z.abs (a - half_even a d * d) <= d /\
  (2 * Z.abs (a - half_even a d * d) = d -> Z.even (half_even a d) = true).
Proof.
  intros a d H. unfold half_even. pose proof (Z.div_mod a d ltac:(lia)) as D. pose proof (Z.mod_pos_bound a d H) as B.
  destruct (Z.compare_spec (2 * (a mod d)) d) as [C|C|C].
  - destruct (Z.even (a / d)) eqn:E.
    + split; [nia|auto].
    + split; [nia|]. intros _. rewrite Z.even_add, E. reflexivity.
  - split; nia.
  - split; nia.
Qed.
Lemma half_even_nonneg : forall a d, 0 <= a -> 0 < d -> 0 <= half_even a d.
Proof.
  intros a d A D. unfold half_even. pose proof (Z.div_pos a d A D). destruct (Z.compare _ _); [destruct (Z.even _)|..]; lia.
Qed.
Lemma nearest_ratio : forall a d, 0 < d -> nearest (IZR a / IZR d) (half_even a d).
Proof.
  intros a d H. destruct (half_even_spec a d H) as [S1 S2]. set (n := half_even a d) in *.
  assert (Pd : (0 < IZR d)%R) by (apply IZR_lt; exact H).
  assert (E : (Rabs (IZR a / IZR d - IZR n) = IZR (Z.abs (a - n * d)) / IZR d)%R).
  { rewrite abs_IZR, minus_IZR, mult_IZR. replace (IZR a / IZR d - IZR n)%R with ((IZR a - IZR n * IZR d) / IZR d)%R by (field; lra).
    unfold Rdiv. rewrite Rabs_mult, (Rabs_pos_eq (/ IZR d)); [reflexivity|]. left. apply Rinv_0_lt_compat, Pd. }
  unfold nearest. rewrite E. split.
  - apply (Rmult_le_reg_r (IZR d)); [exact Pd|]. unfold Rdiv. rewrite Rmult_assoc, Rinv_l, Rmult_1_r by lra.
    apply IZR_le in S1. rewrite mult_IZR in S1. lra.
  - intro Q. apply S2. apply eq_IZR. rewrite mult_IZR.
    assert (IZR (Z.abs (a - n * d)) = / 2 * IZR d)%R by (rewrite <- Q; field; lra). lra.
Qed.
Lemma nearest_opp : forall r n, nearest r n -> nearest (- r) (- n).
Proof.
  intros r n [A B]. unfold nearest. rewrite opp_IZR. replace (- r - - IZR n)%R with (- (r - IZR n))%R by ring.
  rewrite Rabs_Ropp, Z.even_opp. split; assumption.
Qed.

(** ** Decimal numbers as floats *)
Lemma in_range_opp : forall x, in_range (- x) <-> in_range x.
Proof. intro x. unfold in_range. rewrite rnd_opp, Rabs_Ropp. reflexivity. Qed.
Lemma valid_opp : forall f, binary64 f -> binary64 (SFopp f).
Proof. intros [s|s| |s m e] H; exact H || reflexivity. Qed.
Lemma fr_SFopp : forall f, fr (SFopp f) = (- fr f)%R.
Proof. intros [s|s| |s m e]; unfold fr; cbn; try ring. rewrite <- F2R_Zopp. destruct s; reflexivity. Qed.
Lemma rounds_opp : forall f x, rounds f x -> rounds (SFopp f) (- x).
Proof.
  intros f x (V & A & B). split; [apply valid_opp, V|]. split; intro H.
  - apply (proj1 (in_range_opp _)) in H. destruct (A H) as [F E]. split; [destruct f; exact F|]. rewrite fr_SFopp, rnd_opp, E. reflexivity.
  - destruct B as [s ->]; [intro K; apply H; apply in_range_opp; exact K|]. exists (negb s). reflexivity.
Qed.
Lemma normalize_rounds : forall n, rounds (SpecFloat.binary_normalize prec emax n 0 false) (IZR n).
Proof.
  intro n. unfold prec, emax. rewrite binary_normalize_equiv.
  pose proof (binary_normalize_correct 53 1024 prec53' prec_emax' mode_NE n 0 false) as P. cbv zeta in P. rewrite F2R_0e in P.
  change (round radix2 (SpecFloat.fexp 53 1024) (round_mode mode_NE)) with rnd in P.
  eapply (rounds_of _ (IZR n) _ (Rlt_bool (IZR n) 0)). exact P.
Qed.
Lemma ten_pow : forall n, 0 <= n -> IZR (10 ^ n) = powerRZ 10 n.
Proof.
  intros [|p|p] H; try lia; [reflexivity|]. cbn [powerRZ]. rewrite (pow_IZR 10). rewrite positive_nat_Z. reflexivity.
Qed.
Lemma ten_pow_neg : forall n, n <= 0 -> powerRZ 10 n = (/ IZR (10 ^ (- n)))%R.
Proof.
  intros [|p|p] H; try lia; [cbn; field|]. cbn [powerRZ Z.opp]. rewrite (pow_IZR 10), positive_nat_Z. reflexivity.
Qed.
Lemma ratio_rounds : forall a b, rounds (ratio_float a b) (IZR a / IZR (Z.pos b)).
Proof.
  intros a b. unfold ratio_float.
  assert (G : forall s p, let x := S754_finite s p 0 in let q := (fr x / IZR (Z.pos b))%R in
     rounds (fdiv x (S754_finite false b 0)) q).
  { intros s p x q.
    pose proof (Bdiv_correct_aux 53 1024 prec53' prec_emax' mode_NE s p 0 false b 0) as P. cbv zeta in P.
    change (round radix2 (SpecFloat.fexp 53 1024) (round_mode mode_NE)) with rnd in P.
    assert (E : fdiv x (S754_finite false b 0) = let '(mz, ez, lz) := SFdiv_core_binary 53 1024 (Zpos p) 0 (Zpos b) 0 in
                           BinarySingleNaN.binary_round_aux 53 1024 mode_NE (xorb s false) mz ez lz).
    { unfold fdiv, x, prec, emax. cbn [SFdiv]. destruct (SFdiv_core_binary 53 1024 (Zpos p) 0 (Zpos b) 0) as [[mz ez] lz].
      apply binary_round_aux_equiv. }
    rewrite <- E in P. destruct P as [V P].
    assert (QE : (F2R (Float radix2 (cond_Zopp s (Z.pos p)) 0) / F2R (Float radix2 (cond_Zopp false (Z.pos b)) 0))%R = q).
    { unfold q, x, fr, SF2R. cbn [cond_Zopp]. rewrite (F2R_0e (Z.pos b)). reflexivity. }
    rewrite QE in P. unfold rounds, in_range.
    destruct (Rlt_bool_spec (Rabs (rnd q)) (bpow radix2 1024)) as [L|L].
    - destruct P as (P1 & P2 & _). split; [exact V|]. split; [intros _; split; [exact P2|exact P1]|]. intro; lra.
    - split; [exact V|]. split; [intro; lra|]. intros _. exists (xorb s false). exact P. }
  destruct a as [|p|p].
  - replace (IZR 0 / IZR (Z.pos b))%R with 0%R by (unfold Rdiv; ring).
    assert (in_range 0) as I by (apply (in_range_int 0); cbn; lia).
    split; [reflexivity|]. split; [|contradiction]. intros _. split; [reflexivity|]. symmetry. apply (rnd_int 0). cbn. lia.
  - specialize (G false p). cbv zeta in G. rewrite fr_pos in G. exact G.
  - specialize (G true p). cbv zeta in G. unfold fr, SF2R in G. cbn [cond_Zopp] in G. rewrite F2R_0e in G. exact G.
Qed.
(** The float a decimal number is read as is the nearest one. *)
Lemma decimal_rounds : forall s m e, rounds (decimal_float s m e) ((if s then - 1 else 1) * IZR m * powerRZ 10 e).
Proof.
  intros s m e. unfold decimal_float.
  assert (G : rounds (if e >=? 0 then SpecFloat.binary_normalize prec emax (m * 10 ^ e) 0 false else ratio_float m (pow10 (- e))) (IZR m * powerRZ 10 e)).
  { destruct (Z.geb_spec e 0) as [H|H].
    - rewrite <- ten_pow by lia. rewrite <- mult_IZR. apply normalize_rounds.
    - rewrite ten_pow_neg by lia. replace (IZR (10 ^ (- e))) with (IZR (Z.pos (pow10 (- e)))); [apply ratio_rounds|].
      unfold pow10. rewrite Z2Pos.id; [reflexivity|]. apply Z.pow_pos_nonneg; lia. }
  destruct s.
  - replace (-1 * IZR m * powerRZ 10 e)%R with (- (IZR m * powerRZ 10 e))%R by ring. apply rounds_opp, G.
  - replace (1 * IZR m * powerRZ 10 e)%R with (IZR m * powerRZ 10 e)%R by ring. exact G.
Qed.

(** ** Rounding floats *)
Lemma scaled_value : forall m e n, (fr (S754_finite false m e) * powerRZ 10 n =
  IZR (Zpos m * 2 ^ Z.max e 0 * 10 ^ Z.max n 0) / IZR (2 ^ Z.max (- e) 0 * 10 ^ Z.max (- n) 0))%R.
Proof.
  intros m e n. rewrite !mult_IZR. unfold fr, SF2R, F2R. cbn [cond_Zopp Fnum Fexp].
  assert (E : (bpow radix2 e = IZR (2 ^ Z.max e 0) / IZR (2 ^ Z.max (- e) 0))%R).
  { destruct (Z_le_gt_dec 0 e) as [H|H].
    - rewrite Z.max_l, Z.max_r by lia. rewrite <- (IZR_Zpower radix2) by lia. change (radix2 ^ e) with (2 ^ e). rewrite Z.pow_0_r. field.
    - rewrite Z.max_r, Z.max_l by lia. rewrite bpow_div by lia. rewrite Z.pow_0_r. field.
      apply not_0_IZR. pose proof (Z.pow_pos_nonneg 2 (- e)). lia. }
  assert (T : (powerRZ 10 n = IZR (10 ^ Z.max n 0) / IZR (10 ^ Z.max (- n) 0))%R).
  { destruct (Z_le_gt_dec 0 n) as [H|H].
    - rewrite Z.max_l, Z.max_r by lia. rewrite ten_pow by lia. rewrite Z.pow_0_r. field.
    - rewrite Z.max_r, Z.max_l by lia. rewrite ten_pow_neg by lia. rewrite Z.pow_0_r. field.
      apply not_0_IZR. pose proof (Z.pow_pos_nonneg 10 (- n)). lia. }
  rewrite E, T. field. split; apply not_0_IZR; [pose proof (Z.pow_pos_nonneg 10 (Z.max (- n) 0))|pose proof (Z.pow_pos_nonneg 2 (Z.max (- e) 0))]; lia.
Qed.
Lemma round_float_spec : forall x n, finite x -> -308 <= n <= 323 -> exists z, nearest (fr x * powerRZ 10 n) z /\
  ((exists f, round_float x n = Ok f /\ finite f /\ fr f = rnd (IZR z * powerRZ 10 (- n))) \/
   (round_float x n = Err OverflowError /\ ~ in_range (IZR z * powerRZ 10 (- n)))).
Proof.
  intros x n F B. destruct x as [s|s| |s m e]; try discriminate F.
  - exists 0. split.
    + unfold nearest, fr. cbn [SF2R]. rewrite Rmult_0_l, Rminus_0_r, Rabs_R0. split; [lra|]. intro; reflexivity.
    + left. exists (S754_zero s). split; [reflexivity|]. split; [reflexivity|]. unfold fr. cbn [SF2R]. rewrite Rmult_0_l.
      symmetry. apply (rnd_int 0). cbn. lia.
  - set (num := Zpos m * 2 ^ Z.max e 0 * 10 ^ Z.max n 0). set (den := 2 ^ Z.max (- e) 0 * 10 ^ Z.max (- n) 0).
    assert (D : 0 < den) by (unfold den; apply Z.mul_pos_pos; apply Z.pow_pos_nonneg; lia).
    set (k := half_even num den).
    exists (if s then - k else k).
    assert (NR : nearest (fr (S754_finite false m e) * powerRZ 10 n) k) by (rewrite scaled_value; apply nearest_ratio, D).
    split; [rewrite fr_opp; destruct s; [|exact NR]; replace (- fr (S754_finite false m e) * powerRZ 10 n)%R with (- (fr (S754_finite false m e) * powerRZ 10 n))%R by ring; apply nearest_opp, NR|].
    assert (V : (IZR (if s then - k else k) * powerRZ 10 (- n) = (if s then -1 else 1) * IZR k * powerRZ 10 (- n))%R)
      by (destruct s; rewrite ?opp_IZR; ring).
    rewrite V. destruct (decimal_rounds s k (- n)) as (VB & A & O).
    unfold round_float. fold num den k.
    destruct (Z.gtb_spec n 323); [lia|]. destruct (Z.ltb_spec n (-308)); [lia|]. cbv zeta.
    destruct (is_inf (decimal_float s k (- n))) eqn:I.
    + right. split; [reflexivity|]. intro R. destruct (A R) as [FF _]. destruct (decimal_float s k (- n)); discriminate.
    + left. eexists. split; [reflexivity|]. apply A. destruct (Rlt_dec (Rabs (rnd ((if s then -1 else 1) * IZR k * powerRZ 10 (- n)))) (bpow radix2 1024)) as [L|L]; [exact L|].
      destruct (O L) as [s' E]. rewrite E in I. discriminate I.
Qed.

(** Exactness of binary64 division, from Flocq: the division of PyVal rounds the real quotient correctly.
    The results used elsewhere ([div_trunc], [div_exact]) are statements about integers; their proofs go
    through Coq's real numbers. *)
From Coq Require Import Reals Lra SpecFloat.
From Flocq Require Import Core BinarySingleNaN.
From Verif Require Import Base PyVal Agg_Model.
Open Scope Z_scope.

#[local] Instance prec53 : Prec_gt_0 53 := eq_refl.
#[local] Instance prec_emax : Prec_lt_emax 53 1024 := eq_refl.

(** The real number a finite float denotes. *)
Definition fr (f : spec_float) : R := SF2R radix2 f.
(** Rounding a real number to the nearest binary64 number, ties to even. *)
Definition rnd (x : R) : R := round radix2 (FLT_exp (3 - 1024 - 53) 53) ZnearestE x.

Lemma round_nearest_even_equiv : forall s m l, round_nearest_even m l = choice_mode mode_NE s m l.
Proof.
  intros s m l. case l; [reflexivity|intro c]. case c; [|reflexivity..].
  cbn. unfold Round.cond_incr. case Z.even; reflexivity.
Qed.
Lemma binary_round_aux_equiv : forall sx mx ex lx,
  SpecFloat.binary_round_aux 53 1024 sx mx ex lx = BinarySingleNaN.binary_round_aux 53 1024 mode_NE sx mx ex lx.
Proof.
  intros. unfold SpecFloat.binary_round_aux, BinarySingleNaN.binary_round_aux.
  destruct (shr_fexp 53 1024 mx ex lx) as [mrs' e']. rewrite (round_nearest_even_equiv sx). reflexivity.
Qed.

Lemma fdiv_correct : forall sx mx ex sy my ey,
  let x := S754_finite sx mx ex in let y := S754_finite sy my ey in
  (Rabs (rnd (fr x / fr y)) < bpow radix2 1024)%R ->
  fr (fdiv x y) = rnd (fr x / fr y) /\ is_finite_SF (fdiv x y) = true /\
  sign_SF (fdiv x y) = xorb sx sy /\ valid_binary 53 1024 (fdiv x y) = true.
Proof.
  intros sx mx ex sy my ey x y H.
  pose proof (Bdiv_correct_aux 53 1024 prec53 prec_emax mode_NE sx mx ex sy my ey) as P. cbv zeta in P.
  change (round radix2 (SpecFloat.fexp 53 1024) (round_mode mode_NE)) with rnd in P.
  assert (E : fdiv x y = let '(mz, ez, lz) := SFdiv_core_binary 53 1024 (Zpos mx) ex (Zpos my) ey in
                         BinarySingleNaN.binary_round_aux 53 1024 mode_NE (xorb sx sy) mz ez lz).
  { unfold fdiv, x, y, prec, emax. cbn [SFdiv]. destruct (SFdiv_core_binary 53 1024 (Zpos mx) ex (Zpos my) ey) as [[mz ez] lz].
    apply binary_round_aux_equiv. }
  rewrite <- E in P. destruct P as [V P].
  rewrite Rlt_bool_true in P by exact H. destruct P as (P1 & P2 & P3). auto.
Qed.

(** ** Numbers that round to themselves *)

Lemma rnd_mono : forall x y, (x <= y)%R -> (rnd x <= rnd y)%R.
Proof. intros. apply round_le; [apply FLT_exp_valid; exact prec53|apply valid_rnd_N|assumption]. Qed.
Lemma rnd_scaled : forall m e, (Z.abs m <= 2 ^ 53) -> (-1074 <= e) -> rnd (F2R (Float radix2 m e)) = F2R (Float radix2 m e).
Proof.
  intros m e Hm He. apply round_generic; [apply valid_rnd_N|].
  destruct (Z.eq_dec (Z.abs m) (2 ^ 53)) as [E|N].
  - (* m = +-2^53: use the exponent e + 53 *)
    assert (F2R (Float radix2 m e) = F2R (Float radix2 (Z.sgn m) (e + 53))) as ->.
    { unfold F2R. cbn [Fnum Fexp]. rewrite bpow_plus. rewrite <- (Z.abs_sgn m) at 1. rewrite E, mult_IZR. change (IZR (2 ^ 53)) with (bpow radix2 53). ring. }
    apply generic_format_FLT. exists (Float radix2 (Z.sgn m) (e + 53)).
    + reflexivity. + cbn. destruct m; cbn; lia. + cbn. lia.
  - apply generic_format_FLT. exists (Float radix2 m e).
    + reflexivity. + cbn [Fnum]. change (radix2 ^ 53) with (2 ^ 53). lia. + cbn. lia.
Qed.
Lemma F2R_0e : forall m, F2R (Float radix2 m 0) = IZR m.
Proof. intro m. unfold F2R. cbn. ring. Qed.
Lemma rnd_int : forall n, Z.abs n <= 2 ^ 53 -> rnd (IZR n) = IZR n.
Proof. intros n H. rewrite <- F2R_0e. apply rnd_scaled; [exact H|lia]. Qed.
Lemma small_bound : forall x, (Rabs x <= bpow radix2 53)%R -> (Rabs x < bpow radix2 1024)%R.
Proof. intros x H. eapply Rle_lt_trans; [exact H|]. apply bpow_lt. lia. Qed.

(** ** int() of a float *)
Lemma bpow_div : forall e, e < 0 -> bpow radix2 e = (/ IZR (2 ^ (- e)))%R.
Proof.
  intros e H. replace e with (- (- e)) at 1 by lia. rewrite bpow_opp. f_equal.
  rewrite <- (IZR_Zpower radix2) by lia. reflexivity.
Qed.
Lemma Z_of_float_pos : forall m e, exists z, Z_of_float (S754_finite false m e) = Ok z /\
  (IZR z <= fr (S754_finite false m e) < IZR z + 1)%R.
Proof.
  intros m e. unfold Z_of_float. eexists. split; [reflexivity|]. unfold fr, SF2R, F2R. cbn [cond_Zopp Fnum Fexp].
  destruct (Z.geb_spec e 0).
  - rewrite <- (IZR_Zpower radix2) by lia. change (radix2 ^ e) with (2 ^ e). rewrite <- mult_IZR. lra.
  - rewrite bpow_div by lia. pose proof (Z.pow_pos_nonneg 2 (- e) ltac:(lia) ltac:(lia)) as P.
    set (k := 2 ^ (- e)) in *. pose proof (Z.div_mod (Z.pos m) k ltac:(lia)) as D. pose proof (Z.mod_pos_bound (Z.pos m) k ltac:(lia)) as B.
    apply IZR_lt in P. set (n := Z.pos m / k) in *.
    assert (IZR (k * n) <= IZR (Z.pos m) < IZR (k * n + k))%R as [Q1 Q2].
    { split; [apply IZR_le; lia|apply IZR_lt; lia]. }
    rewrite plus_IZR, mult_IZR in Q2. rewrite mult_IZR in Q1.
    split; apply (Rmult_le_reg_r (IZR k)) || apply (Rmult_lt_reg_r (IZR k)); try exact P.
    + rewrite Rmult_assoc, Rinv_l by lra. lra.
    + rewrite Rmult_assoc, Rinv_l by lra. lra.
Qed.

(** ** The results *)

Lemma ratio_pos : forall a b, ratio_float (Z.pos a) b = fdiv (S754_finite false a 0) (S754_finite false b 0).
Proof. reflexivity. Qed.
Lemma fr_pos : forall a, fr (S754_finite false a 0) = IZR (Z.pos a).
Proof. intro a. unfold fr, SF2R. cbn [cond_Zopp]. apply F2R_0e. Qed.

(** A float holding the rounded quotient a / b truncates to the integer quotient. *)
Lemma trunc_rnd : forall a b, (Z.pos a) + (Z.pos b) <= 2 ^ 52 ->
  let q := (IZR (Z.pos a) / IZR (Z.pos b))%R in
  (Rabs (rnd q) < bpow radix2 1024)%R /\
  forall f, is_finite_SF f = true -> fr f = rnd q -> Z_of_float f = Ok (Z.pos a / Z.pos b).
Proof.
  intros a b L. cbv zeta.
  assert (Hb : 0 < Z.pos b) by lia.
  set (n := Z.pos a / Z.pos b).
  pose proof (Z.div_mod (Z.pos a) (Z.pos b) ltac:(lia)) as D. pose proof (Z.mod_pos_bound (Z.pos a) (Z.pos b) ltac:(lia)) as Bd.
  fold n in D. assert (0 <= n) as N0 by (apply Z.div_pos; lia).
  set (q := (IZR (Z.pos a) / IZR (Z.pos b))%R).
  assert (0 < IZR (Z.pos b))%R as Pb by (apply IZR_lt; lia).
  assert (Qn : (IZR n <= q)%R).
  { unfold q. apply (Rmult_le_reg_r (IZR (Z.pos b))); [exact Pb|]. unfold Rdiv. rewrite Rmult_assoc, Rinv_l, Rmult_1_r by lra.
    rewrite <- mult_IZR. apply IZR_le. lia. }
  set (e := Z.log2_up (n + 1)).
  assert (e0 : 0 <= e) by apply Z.log2_up_nonneg.
  assert (U : n + 1 <= 2 ^ e) by (apply Z.log2_up_le_pow2; unfold e; lia).
  assert (LW : 2 ^ e <= 2 * (n + 1)).
  { destruct (Z.eq_dec n 0) as [->|]; [cbn; lia|]. pose proof (Z.log2_up_spec (n + 1) ltac:(lia)) as [S1 _]. fold e in S1.
    assert (Z.log2_up 2 <= e) as E2 by (apply Z.log2_up_le_mono; lia). change (Z.log2_up 2) with 1 in E2.
    replace e with (Z.succ (Z.pred e)) by lia. rewrite Z.pow_succ_r by lia. lia. }
  assert (BE : Z.pos b * 2 ^ e <= 2 ^ 53) 
    by (change (2 ^ 53) with (2 * 2 ^ 52); pose proof (Z.mul_le_mono_nonneg_l _ _ (Z.pos b) ltac:(lia) LW); lia).
  assert (E53 : e <= 53).
  { apply (Z.pow_le_mono_r_iff 2); try lia. }
  set (y := F2R (Float radix2 ((n + 1) * 2 ^ (53 - e) - 1) (e - 53))).
  assert (P2 : 2 ^ 53 = 2 ^ e * 2 ^ (53 - e)) by (rewrite <- Z.pow_add_r by lia; f_equal; lia).
  assert (0 < 2 ^ (53 - e)) as Pe by (apply Z.pow_pos_nonneg; lia).
  assert (Ry : rnd y = y) by (apply rnd_scaled; [nia|lia]).
  assert (Ey : y = (IZR (n + 1) - / IZR (2 ^ (53 - e)))%R).
  { unfold y, F2R. cbn [Fnum Fexp]. destruct (Z.eq_dec e 53) as [E|E].
    - rewrite E. cbn. rewrite minus_IZR, mult_IZR. field.
    - rewrite bpow_div by lia. replace (- (e - 53)) with (53 - e) by lia. rewrite minus_IZR, mult_IZR.
      apply IZR_lt in Pe. field. lra. }
  apply IZR_lt in Pe. assert (Yn : (y < IZR (n + 1))%R).
  { rewrite Ey. pose proof (Rinv_0_lt_compat _ Pe). lra. }
  assert (Qy : (q <= y)%R).
  { rewrite Ey. assert (K : (IZR (Z.pos b) <= IZR (2 ^ (53 - e)))%R).
    { apply IZR_le. pose proof (Z.pow_pos_nonneg 2 e ltac:(lia) ltac:(lia)). apply (Z.mul_le_mono_pos_r _ _ (2 ^ e)); lia. }
    assert (K' : (/ IZR (2 ^ (53 - e)) <= / IZR (Z.pos b))%R) by (apply Rinv_le; assumption).
    assert (q <= IZR (n + 1) - / IZR (Z.pos b))%R; [|lra].
    unfold q. apply (Rmult_le_reg_r (IZR (Z.pos b))); [exact Pb|]. unfold Rdiv. rewrite Rmult_assoc, Rinv_l, Rmult_1_r by lra.
    rewrite Rmult_minus_distr_r, Rinv_l by lra. rewrite <- mult_IZR, <- minus_IZR. apply IZR_le. lia. }
  assert (R1 : (IZR n <= rnd q)%R).
  { rewrite <- (rnd_int n); [apply rnd_mono, Qn|]. rewrite Z.abs_eq by lia. change (2 ^ 53) with (2 * 2 ^ 52). nia. }
  assert (R2 : (rnd q < IZR n + 1)%R).
  { rewrite <- plus_IZR. eapply Rle_lt_trans; [|exact Yn]. rewrite <- Ry. apply rnd_mono, Qy. }
  assert (B1 : (Rabs (rnd q) < bpow radix2 1024)%R).
  { apply small_bound. rewrite Rabs_pos_eq by (apply IZR_le in N0; lra). 
    apply Rle_trans with (IZR n + 1)%R; [lra|]. rewrite <- plus_IZR. change (bpow radix2 53) with (IZR (2 ^ 53)). apply IZR_le.
    change (2 ^ 53) with (2 * 2 ^ 52). nia. }
  split; [exact B1|]. intros f F2 F1.
  destruct f as [s|s| |s m ex]; try discriminate F2.
  - cbn [Z_of_float]. f_equal. cbn in F1. rewrite <- F1 in R1, R2.
    assert (n <= 0) by (apply le_IZR; exact R1). lia.
  - destruct s.
    { exfalso. assert (fr (S754_finite true m ex) < 0)%R by (unfold fr, SF2R; apply F2R_lt_0; cbn; lia).
      apply IZR_le in N0. lra. }
    destruct (Z_of_float_pos m ex) as (z & -> & Z1 & Z2).
    f_equal. rewrite F1 in Z1, Z2.
    assert (z < n + 1) by (apply lt_IZR; rewrite plus_IZR; lra). assert (n < z + 1) by (apply lt_IZR; rewrite plus_IZR; lra). lia.
Qed.
(** int(a / b) is the integer quotient, for moderate a and b. *)
Theorem div_trunc : forall a b, 0 <= a -> 0 < b -> a + b <= 2 ^ 52 ->
  (do x <- py_div (VInt a) (VInt b); py_int x) = Ok (VInt (a / b)).
Proof.
  intros a b Ha Hb L. destruct b as [|b|b]; try lia. destruct a as [|a|a]; [reflexivity| |lia].
  unfold py_div. cbn [as_int]. rewrite ratio_pos. destruct (trunc_rnd a b L) as [B1 T].
  destruct (fdiv_correct false a 0 false b 0) as (F1 & F2 & F3 & F4).
  { rewrite !fr_pos. exact B1. }
  rewrite !fr_pos in F1.
  assert (is_inf (fdiv (S754_finite false a 0) (S754_finite false b 0)) = false) as ->
    by (destruct (fdiv _ _); try discriminate F2; reflexivity).
  cbn [bind py_int]. rewrite (T _ F2 F1). reflexivity.
Qed.
Print Assumptions div_trunc.

(** ** All four operations *)

Notation bf := (binary_float 53 1024).
Lemma binary_round_equiv : forall s m e,
  SpecFloat.binary_round 53 1024 s m e = BinarySingleNaN.binary_round 53 1024 mode_NE s m e.
Proof.
  intros. unfold SpecFloat.binary_round, BinarySingleNaN.binary_round, shl_align_fexp.
  destruct (shl_align _ _ _) as [mz ez]. apply binary_round_aux_equiv.
Qed.
Lemma binary_normalize_equiv : forall m e sz,
  SpecFloat.binary_normalize 53 1024 m e sz = B2SF (BinarySingleNaN.binary_normalize 53 1024 prec53 prec_emax mode_NE m e sz).
Proof.
  intros [|p|p] e sz; cbn [SpecFloat.binary_normalize BinarySingleNaN.binary_normalize]; [reflexivity|..];
    rewrite B2SF_SF2B; apply binary_round_equiv.
Qed.
Lemma fadd_equiv : forall x y : bf, fadd (B2SF x) (B2SF y) = B2SF (Bplus mode_NE x y).
Proof.
  intros [sx|sx| |sx mx ex Bx] [sy|sy| |sy my ey By]; try reflexivity; try (cbn; destruct (Bool.eqb sx sy); reflexivity).
  apply binary_normalize_equiv.
Qed.
Lemma fsub_equiv : forall x y : bf, fsub (B2SF x) (B2SF y) = B2SF (Bminus mode_NE x y).
Proof.
  intros x y. destruct x as [sx|sx| |sx mx ex Bx]; destruct y as [sy|sy| |sy my ey By];
    try reflexivity; try solve [destruct sx, sy; reflexivity].
  unfold fsub, prec, emax. cbn [B2SF SFsub Bminus]. unfold Zminus. rewrite <- cond_Zopp_negb. apply binary_normalize_equiv.
Qed.
Lemma fmul_equiv : forall x y : bf, fmul (B2SF x) (B2SF y) = B2SF (Bmult mode_NE x y).
Proof.
  intros [sx|sx| |sx mx ex Bx] [sy|sy| |sy my ey By]; try reflexivity.
  unfold fmul, prec, emax. cbn [B2SF SFmul Bmult]. rewrite B2SF_SF2B. apply binary_round_aux_equiv.
Qed.
Lemma fdiv_equiv : forall x y : bf, fdiv (B2SF x) (B2SF y) = B2SF (Bdiv mode_NE x y).
Proof.
  intros [sx|sx| |sx mx ex Bx] [sy|sy| |sy my ey By]; try reflexivity.
  unfold fdiv, prec, emax. cbn [B2SF SFdiv Bdiv]. rewrite B2SF_SF2B.
  destruct (SFdiv_core_binary _ _ _ _ _ _) as [[mz ez] lz]. apply binary_round_aux_equiv.
Qed.

(** A binary64 number: a float with a 53-bit significand and an exponent in range. *)
Definition binary64 (f : spec_float) : Prop := valid_binary 53 1024 f = true.
Definition finite (f : spec_float) : Prop := is_finite_SF f = true.
Definition in_range (x : R) : Prop := (Rabs (rnd x) < bpow radix2 1024)%R.

Lemma binary64_B : forall f, binary64 f -> exists b : bf, f = B2SF b.
Proof. intros f H. exists (SF2B f H). symmetry. apply B2SF_SF2B. Qed.
Lemma fr_B : forall b : bf, fr (B2SF b) = B2R b.
Proof. intros [| | |]; reflexivity. Qed.
Lemma finite_B : forall b : bf, finite (B2SF b) <-> is_finite b = true.
Proof. intros [| | |]; reflexivity. Qed.
Lemma valid_B : forall b : bf, binary64 (B2SF b).
Proof. intro b. unfold binary64. apply valid_binary_B2SF. Qed.

(** Correctly rounded results; infinity when out of range. *)
Definition rounds (f : spec_float) (x : R) : Prop :=
  binary64 f /\ (in_range x -> finite f /\ fr f = rnd x) /\ (~ in_range x -> exists s, f = S754_infinity s).

Lemma rounds_of : forall (b : bf) x P s,
  (if Rlt_bool (Rabs (rnd x)) (bpow radix2 1024) then B2R b = rnd x /\ is_finite b = true /\ P
   else B2SF b = binary_overflow 53 1024 mode_NE s) -> rounds (B2SF b) x.
Proof.
  intros b x P s H. split; [apply valid_B|]. unfold in_range. destruct (Rlt_bool_spec (Rabs (rnd x)) (bpow radix2 1024)) as [L|L].
  - split; [|lra]. intros _. destruct H as (H1 & H2 & _). split; [apply finite_B, H2|rewrite fr_B; exact H1].
  - split; [intro; lra|]. intros _. exists s. exact H.
Qed.

Theorem float_operations_round : forall x y, binary64 x -> binary64 y -> finite x -> finite y ->
  rounds (fadd x y) (fr x + fr y) /\ rounds (fsub x y) (fr x - fr y) /\ rounds (fmul x y) (fr x * fr y) /\
  (fr y <> 0%R -> rounds (fdiv x y) (fr x / fr y)).
Proof.
  intros x y Vx Vy Fx Fy. destruct (binary64_B x Vx) as [bx ->], (binary64_B y Vy) as [b ->].
  apply finite_B in Fx. apply finite_B in Fy. rewrite fadd_equiv, fsub_equiv, fmul_equiv, fdiv_equiv, !fr_B.
  split; [|split; [|split]].
  - pose proof (Bplus_correct 53 1024 prec53 prec_emax mode_NE bx b Fx Fy) as H.
    change (round radix2 (SpecFloat.fexp 53 1024) (round_mode mode_NE)) with rnd in H.
    eapply (rounds_of (Bplus mode_NE bx b) (B2R bx + B2R b) _ (Bsign bx)).
    destruct (Rlt_bool _ _); [exact H|apply H].
  - pose proof (Bminus_correct 53 1024 prec53 prec_emax mode_NE bx b Fx Fy) as H.
    change (round radix2 (SpecFloat.fexp 53 1024) (round_mode mode_NE)) with rnd in H.
    eapply (rounds_of (Bminus mode_NE bx b) (B2R bx - B2R b) _ (Bsign bx)).
    destruct (Rlt_bool _ _); [exact H|apply H].
  - pose proof (Bmult_correct 53 1024 prec53 prec_emax mode_NE bx b) as H. rewrite Fx, Fy in H.
    eapply (rounds_of (Bmult mode_NE bx b) (B2R bx * B2R b) _ (xorb (Bsign bx) (Bsign b))). exact H.
  - intro Z. pose proof (Bdiv_correct 53 1024 prec53 prec_emax mode_NE bx b Z) as H. rewrite Fx in H.
    eapply (rounds_of (Bdiv mode_NE bx b) (B2R bx / B2R b) _ (xorb (Bsign bx) (Bsign b))). exact H.
Qed.

(** float(n) is the correctly rounded n, or OverflowError. *)
Lemma float_of_Z_rounds : forall n, in_range (IZR n) ->
  exists f, float_of_Z n = Ok f /\ binary64 f /\ finite f /\ fr f = rnd (IZR n).
Proof.
  intros n H. unfold float_of_Z, prec, emax. rewrite binary_normalize_equiv.
  pose proof (binary_normalize_correct 53 1024 prec53 prec_emax mode_NE n 0 false) as P. cbv zeta in P. rewrite F2R_0e in P.
  change (round radix2 (SpecFloat.fexp 53 1024) (round_mode mode_NE)) with rnd in P.
  rewrite Rlt_bool_true in P by exact H. destruct P as (P1 & P2 & _).
  set (b := BinarySingleNaN.binary_normalize _ _ _ _ _ _ _ _) in *.
  exists (B2SF b). assert (is_inf (B2SF b) = false) as -> by (destruct b; try discriminate P2; reflexivity).
  split; [reflexivity|]. split; [apply valid_B|]. split; [apply finite_B, P2|]. rewrite fr_B. exact P1.
Qed.

(** [f] is the integer [n]. *)
Definition float_is (f : spec_float) (n : Z) : Prop := binary64 f /\ finite f /\ fr f = IZR n.
Lemma in_range_int : forall n, Z.abs n <= 2 ^ 53 -> in_range (IZR n).
Proof.
  intros n H. unfold in_range. rewrite rnd_int by exact H. apply small_bound. rewrite <- abs_IZR.
  change (bpow radix2 53) with (IZR (2 ^ 53)). apply IZR_le, H.
Qed.
Lemma float_of_Z_is : forall n, Z.abs n <= 2 ^ 53 -> exists f, float_of_Z n = Ok f /\ float_is f n.
Proof.
  intros n H. destruct (float_of_Z_rounds n (in_range_int n H)) as (f & E & V & F & R). exists f.
  split; [exact E|]. rewrite rnd_int in R by exact H. split; [exact V|]. split; [exact F|exact R].
Qed.
Lemma fr_opp : forall s m e, fr (S754_finite s m e) = (if s then - fr (S754_finite false m e) else fr (S754_finite false m e))%R.
Proof. intros [] m e; [|reflexivity]. unfold fr, SF2R. cbn [cond_Zopp]. rewrite F2R_Zopp. reflexivity. Qed.
Lemma float_is_int : forall f n, float_is f n -> Z_of_float f = Ok n.
Proof.
  intros f n (_ & F & R). destruct f as [s|s| |s m e]; try discriminate F.
  - cbn in R |- *. f_equal. symmetry. apply eq_IZR. symmetry. exact R.
  - destruct (Z_of_float_pos m e) as (z & E & B1 & B2). rewrite fr_opp in R. unfold Z_of_float in *. cbv zeta in *.
    set (A := if e >=? 0 then _ else _) in *. assert (A = z) as -> by congruence. destruct s; f_equal.
    + assert (- n < z + 1) by (apply lt_IZR; rewrite plus_IZR, opp_IZR; lra).
      assert (z <= - n) by (apply le_IZR; rewrite opp_IZR; lra). lia.
    + assert (n < z + 1) by (apply lt_IZR; rewrite plus_IZR; lra). assert (z <= n) by (apply le_IZR; lra). lia.
Qed.
Lemma float_is_pycmp : forall f n m, float_is f n -> pyeq (VFloat f) (VInt m) = (n =? m).
Proof.
  intros f n m (_ & F & R). destruct f as [s|s| |s mm e]; try discriminate F.
  - cbn in R. assert (n = 0) as -> by (apply eq_IZR; symmetry; exact R). unfold pyeq, pycmp. cbn [num_of num_of_float ncmp].
    change (Z.min 0 0) with 0. rewrite Z.sub_diag, Z.mul_0_l, Z.pow_0_r, Z.mul_1_r. unfold Z.eqb. destruct m; reflexivity.
  - unfold pyeq, pycmp. cbn [num_of num_of_float ncmp]. set (a := if s then Z.neg mm else Z.pos mm).
    assert (R' : F2R (Float radix2 a e) = IZR n) by (rewrite <- R; unfold fr, SF2R, a; destruct s; reflexivity).
    assert (H : Z.compare (a * 2 ^ (e - Z.min e 0)) (m * 2 ^ (0 - Z.min e 0)) = Z.compare n m).
    { unfold F2R in R'. cbn [Fnum Fexp] in R'. destruct (Z_le_dec 0 e).
      - rewrite Z.min_r by lia. rewrite Z.sub_0_r, Z.sub_diag, Z.pow_0_r, Z.mul_1_r.
        rewrite <- (IZR_Zpower radix2), <- mult_IZR in R' by lia. apply eq_IZR in R'. change (radix2 ^ e) with (2 ^ e) in R'. rewrite R'. reflexivity.
      - rewrite Z.min_l by lia. rewrite Z.sub_diag, Z.pow_0_r, Z.mul_1_r. rewrite bpow_div in R' by lia. cbn [Z.sub Z.add].
        assert (P : 0 < 2 ^ (- e)) by (apply Z.pow_pos_nonneg; lia). replace (0 - e) with (- e) by lia.
        assert (a = n * 2 ^ (- e)) as ->.
        { apply eq_IZR. rewrite mult_IZR, <- R'. apply IZR_lt in P. field. lra. }
        symmetry. apply Zmult_compare_compat_r. lia. }
    rewrite H. rewrite Z.eqb_compare. destruct (n ?= m); reflexivity.
Qed.

(** An exact quotient comes out exactly: of two integers, and of floats that are integers. *)
Lemma fdiv_is : forall x y q b, float_is x (q * b) -> float_is y b -> b <> 0 -> Z.abs q <= 2 ^ 53 -> float_is (fdiv x y) q.
Proof.
  intros x y q b (Vx & Fx & Rx) (Vy & Fy & Ry) Nb Hq.
  assert (Hb : IZR b <> 0%R) by (intro E; apply eq_IZR in E; contradiction).
  destruct (float_operations_round x y Vx Vy Fx Fy) as (_ & _ & _ & H). rewrite Ry in H. specialize (H Hb).
  rewrite Rx, mult_IZR in H. replace (IZR q * IZR b / IZR b)%R with (IZR q) in H by (field; exact Hb).
  destruct H as (V & H & _). destruct (H (in_range_int q Hq)) as [F R]. rewrite rnd_int in R by exact Hq. split; auto.
Qed.
Theorem div_exact : forall q b, 0 < b -> Z.abs q <= 2 ^ 53 ->
  exists f, py_div (VInt (q * b)) (VInt b) = Ok (VFloat f) /\ float_is f q.
Proof.
  intros q b Hb Hq. unfold py_div. cbn [as_int]. destruct b as [|b|b]; try lia.
  assert (Nb : IZR (Z.pos b) <> 0%R) by (intro E; apply eq_IZR in E; discriminate E).
  assert (G : exists f, ratio_float (q * Z.pos b) b = f /\ float_is f q).
  { eexists. split; [reflexivity|]. unfold ratio_float. destruct (q * Z.pos b) as [|p|p] eqn:E.
    - assert (q = 0) as -> by nia. split; [reflexivity|]. split; reflexivity.
    - destruct (fdiv_correct false p 0 false b 0) as (F1 & F2 & _ & F4).
      + rewrite !fr_pos, <- E, mult_IZR. replace (IZR q * IZR (Z.pos b) / IZR (Z.pos b))%R with (IZR q) by (field; exact Nb). apply in_range_int, Hq.
      + rewrite !fr_pos, <- E, mult_IZR in F1. replace (IZR q * IZR (Z.pos b) / IZR (Z.pos b))%R with (IZR q) in F1 by (field; exact Nb).
        rewrite rnd_int in F1 by exact Hq. split; auto.
    - assert (FN : fr (S754_finite true p 0) = IZR (Z.neg p)) by (unfold fr, SF2R; apply F2R_0e).
      destruct (fdiv_correct true p 0 false b 0) as (F1 & F2 & _ & F4).
      + rewrite FN, fr_pos, <- E, mult_IZR. replace (IZR q * IZR (Z.pos b) / IZR (Z.pos b))%R with (IZR q) by (field; exact Nb). apply in_range_int, Hq.
      + rewrite FN, fr_pos, <- E, mult_IZR in F1. replace (IZR q * IZR (Z.pos b) / IZR (Z.pos b))%R with (IZR q) in F1 by (field; exact Nb).
        rewrite rnd_int in F1 by exact Hq. split; auto. }
  destruct G as (f & E & I). rewrite E. exists f.
  assert (is_inf f = false) as -> by (destruct I as (_ & F & _); destruct f; try discriminate F; reflexivity). auto.
Qed.

(** ** int(a / b) for integers of either sign, and its size for integers beyond the exact range *)
Lemma rnd_opp : forall x, rnd (- x) = (- rnd x)%R.
Proof. intro x. unfold rnd. apply round_NE_opp. Qed.
Definition flip (f : spec_float) : spec_float :=
  match f with S754_finite s m e => S754_finite (negb s) m e | S754_zero s => S754_zero (negb s) | S754_infinity s => S754_infinity (negb s) | S754_nan => S754_nan end.
Lemma fr_flip : forall f, fr (flip f) = (- fr f)%R.
Proof.
  intros [s|s| |s m e]; unfold fr; cbn; try ring. rewrite <- F2R_Zopp. destruct s; reflexivity.
Qed.
Lemma Z_of_float_flip : forall f z, Z_of_float (flip f) = Ok z -> Z_of_float f = Ok (- z).
Proof.
  intros [s|s| |s m e] z; cbn; intro H; try discriminate H; [injection H as <-; reflexivity|].
  set (A := if e >=? 0 then _ else _) in *. destruct s; cbn in H; f_equal; (assert (H' : forall x y : Z, Ok x = Ok y -> x = y) by (intros; congruence)); apply H' in H; lia.
Qed.
Lemma div_neg_rounds : forall a b, let q := (IZR (Z.pos a) / IZR (Z.pos b))%R in (Rabs (rnd q) < bpow radix2 1024)%R ->
  exists f, py_div (VInt (Z.neg a)) (VInt (Z.pos b)) = Ok (VFloat f) /\ is_finite_SF f = true /\ fr (flip f) = rnd q.
Proof.
  intros a b q H. unfold py_div. cbn [as_int]. exists (ratio_float (Z.neg a) b).
  assert (FN : fr (S754_finite true a 0) = (- IZR (Z.pos a))%R) by (unfold fr, SF2R; cbn [cond_Zopp]; rewrite F2R_0e; reflexivity).
  assert (Q : (fr (S754_finite true a 0) / fr (S754_finite false b 0) = - q)%R).
  { rewrite FN, fr_pos. unfold q. field. intro E. apply eq_IZR in E. discriminate E. }
  destruct (fdiv_correct true a 0 false b 0) as (F1 & F2 & _ & _).
  { rewrite Q, rnd_opp, Rabs_Ropp. exact H. }
  rewrite Q, rnd_opp in F1. change (ratio_float (Z.neg a) b) with (fdiv (S754_finite true a 0) (S754_finite false b 0)).
  assert (is_inf (fdiv (S754_finite true a 0) (S754_finite false b 0)) = false) as -> by (destruct (fdiv _ _); try discriminate F2; reflexivity).
  split; [reflexivity|]. split; [exact F2|]. rewrite fr_flip, F1. ring.
Qed.
Theorem div_quot : forall a b, 0 < b -> Z.abs a + b <= 2 ^ 52 ->
  (do x <- py_div (VInt a) (VInt b); py_int x) = Ok (VInt (Z.quot a b)).
Proof.
  intros a b Hb L. destruct (Z_le_gt_dec 0 a) as [P|N].
  - rewrite Z.quot_div_nonneg by lia. apply div_trunc; lia.
  - destruct a as [|a|a]; try lia. destruct b as [|b|b]; try lia. cbn [Z.abs] in L.
    destruct (trunc_rnd a b L) as [B T]. destruct (div_neg_rounds a b B) as (f & -> & Ff & Rf). cbn [bind py_int].
    assert (Ff' : is_finite_SF (flip f) = true) by (destruct f; try discriminate Ff; reflexivity).
    specialize (T (flip f) Ff' Rf). apply Z_of_float_flip in T. rewrite T. cbn [bind].
    change (Z.neg a) with (- Z.pos a). rewrite Z.quot_opp_l by lia. rewrite Z.quot_div_nonneg by lia. reflexivity.
Qed.
Theorem div_large : forall a b n, 0 < b -> 0 <= n <= 2 ^ 53 -> n * b <= Z.abs a ->
  (exists e, (do x <- py_div (VInt a) (VInt b); py_int x) = Err e) \/
  exists z, (do x <- py_div (VInt a) (VInt b); py_int x) = Ok (VInt z) /\ n <= Z.abs z /\ 0 <= a * z.
Proof.
  assert (G : forall a b n f, 0 <= n <= 2 ^ 53 -> n * Z.pos b <= Z.pos a -> is_finite_SF f = true ->
              fr f = rnd (IZR (Z.pos a) / IZR (Z.pos b)) -> exists z, Z_of_float f = Ok z /\ n <= z).
  { intros a b n f Hn Hl F R.
    assert (Pb : (0 < IZR (Z.pos b))%R) by (apply IZR_lt; lia).
    assert (Q : (IZR n <= fr f)%R).
    { rewrite R. rewrite <- (rnd_int n) by lia. apply rnd_mono. apply (Rmult_le_reg_r (IZR (Z.pos b))); [exact Pb|].
      unfold Rdiv. rewrite Rmult_assoc, Rinv_l, Rmult_1_r by lra. rewrite <- mult_IZR. apply IZR_le. lia. }
    assert (N0 : (0 <= IZR n)%R) by (apply IZR_le; lia).
    destruct f as [s|s| |s m e]; try discriminate F.
    - exists 0. split; [reflexivity|]. cbn in Q. apply le_IZR in Q. lia.
    - destruct s.
      + exfalso. assert (fr (S754_finite true m e) < 0)%R by (unfold fr, SF2R; apply F2R_lt_0; cbn; lia). lra.
      + destruct (Z_of_float_pos m e) as (z & E & Z1 & Z2). exists z. split; [exact E|].
        assert (n < z + 1) by (apply lt_IZR; rewrite plus_IZR; lra). lia. }
  intros a b n Hb Hn Hl. destruct b as [|b|b]; try lia.
  destruct a as [|a|a].
  - right. exists 0. split; [reflexivity|]. cbn [Z.abs] in *. split; [nia|lia].
  - cbn [Z.abs] in Hl. unfold py_div. cbn [as_int]. rewrite ratio_pos.
    destruct (Rlt_dec (Rabs (rnd (IZR (Z.pos a) / IZR (Z.pos b)))) (bpow radix2 1024)) as [B|B].
    + destruct (fdiv_correct false a 0 false b 0) as (F1 & F2 & _ & _); [rewrite !fr_pos; exact B|]. rewrite !fr_pos in F1.
      assert (is_inf (fdiv (S754_finite false a 0) (S754_finite false b 0)) = false) as -> by (destruct (fdiv _ _); try discriminate F2; reflexivity).
      destruct (G a b n _ Hn Hl F2 F1) as (z & Ez & Lz). right. exists z. cbn [bind py_int]. rewrite Ez. split; [reflexivity|]. split; [lia|nia].
    + left. destruct (is_inf (fdiv _ _)) eqn:I; [eexists; reflexivity|]. cbn [bind py_int].
      (* out of range but not infinite does not happen *)
      pose proof (Bdiv_correct_aux 53 1024 prec53 prec_emax mode_NE false a 0 false b 0) as P. cbv zeta in P.
      change (round radix2 (SpecFloat.fexp 53 1024) (round_mode mode_NE)) with rnd in P.
      assert (E : fdiv (S754_finite false a 0) (S754_finite false b 0) = let '(mz, ez, lz) := SFdiv_core_binary 53 1024 (Zpos a) 0 (Zpos b) 0 in
                           BinarySingleNaN.binary_round_aux 53 1024 mode_NE (xorb false false) mz ez lz).
      { unfold fdiv, prec, emax. cbn [SFdiv]. destruct (SFdiv_core_binary 53 1024 (Zpos a) 0 (Zpos b) 0) as [[mz ez] lz].
        apply binary_round_aux_equiv. }
      rewrite <- E in P. destruct P as [_ P]. cbn [cond_Zopp] in P. rewrite !F2R_0e in P. rewrite Rlt_bool_false in P by lra.
      rewrite P in I. discriminate I.
  - cbn [Z.abs] in Hl.
    destruct (Rlt_dec (Rabs (rnd (IZR (Z.pos a) / IZR (Z.pos b)))) (bpow radix2 1024)) as [B|B].
    + destruct (div_neg_rounds a b B) as (f & -> & Ff & Rf). cbn [bind py_int].
      assert (Ff' : is_finite_SF (flip f) = true) by (destruct f; try discriminate Ff; reflexivity).
      destruct (G a b n _ Hn Hl Ff' Rf) as (z & Ez & Lz). apply Z_of_float_flip in Ez. rewrite Ez. cbn [bind].
      right. exists (- z). split; [reflexivity|]. split; [lia|nia].
    + left. unfold py_div. cbn [as_int].
      change (ratio_float (Z.neg a) b) with (fdiv (S754_finite true a 0) (S754_finite false b 0)).
      destruct (is_inf (fdiv _ _)) eqn:I; [eexists; reflexivity|]. exfalso.
      pose proof (Bdiv_correct_aux 53 1024 prec53 prec_emax mode_NE true a 0 false b 0) as P. cbv zeta in P.
      change (round radix2 (SpecFloat.fexp 53 1024) (round_mode mode_NE)) with rnd in P.
      assert (E : fdiv (S754_finite true a 0) (S754_finite false b 0) = let '(mz, ez, lz) := SFdiv_core_binary 53 1024 (Zpos a) 0 (Zpos b) 0 in
                           BinarySingleNaN.binary_round_aux 53 1024 mode_NE (xorb true false) mz ez lz).
      { unfold fdiv, prec, emax. cbn [SFdiv]. destruct (SFdiv_core_binary 53 1024 (Zpos a) 0 (Zpos b) 0) as [[mz ez] lz].
        apply binary_round_aux_equiv. }
      rewrite <- E in P. destruct P as [_ P]. cbn [cond_Zopp] in P. rewrite !F2R_0e in P. rewrite Rlt_bool_false in P.
      * rewrite P in I. discriminate I.
      * replace (IZR (- Z.pos a) / IZR (Z.pos b))%R with (- (IZR (Z.pos a) / IZR (Z.pos b)))%R by (rewrite opp_IZR; field; intro E0; apply eq_IZR in E0; discriminate E0).
        rewrite rnd_opp, Rabs_Ropp. lra.
Qed.
Print Assumptions div_quot. Print Assumptions div_large.

(** The quotient of two floats that are integers truncates to the integer quotient. *)
Lemma fdiv_quot : forall x y a b, float_is x a -> float_is y b -> 0 < b -> Z.abs a + b <= 2 ^ 52 ->
  Z_of_float (fdiv x y) = Ok (Z.quot a b).
Proof.
  intros x y a b (Vx & Fx & Rx) (Vy & Fy & Ry) Hb L. destruct b as [|b|b]; try lia.
  assert (Nb : IZR (Z.pos b) <> 0%R) by (intro E; apply eq_IZR in E; discriminate E).
  destruct (float_operations_round x y Vx Vy Fx Fy) as (_ & _ & _ & D). rewrite Rx, Ry in D. specialize (D Nb). destruct D as (V & D & _).
  destruct a as [|a|a].
  - change (Z.quot 0 (Z.pos b)) with 0. apply float_is_int. replace (IZR 0 / IZR (Z.pos b))%R with (IZR 0) in D by (unfold Rdiv; ring).
    destruct (D (in_range_int 0 ltac:(cbn; lia))) as [F R]. split; [exact V|]. split; [exact F|]. rewrite R. apply rnd_int. cbn. lia.
  - rewrite Z.quot_div_nonneg by lia. destruct (trunc_rnd a b L) as [B T]. destruct (D B) as [F R]. apply T; assumption.
  - cbn [Z.abs] in L. destruct (trunc_rnd a b L) as [B T].
    assert (Q : (IZR (Z.neg a) / IZR (Z.pos b) = - (IZR (Z.pos a) / IZR (Z.pos b)))%R) by (change (Z.neg a) with (- Z.pos a); rewrite opp_IZR; field; exact Nb).
    rewrite Q in D. assert (B' : in_range (- (IZR (Z.pos a) / IZR (Z.pos b)))) by (unfold in_range; rewrite rnd_opp, Rabs_Ropp; exact B).
    destruct (D B') as [F R]. assert (F' : is_finite_SF (flip (fdiv x y)) = true) by (unfold finite in F; destruct (fdiv x y); try discriminate F; reflexivity).
    assert (R' : fr (flip (fdiv x y)) = rnd (IZR (Z.pos a) / IZR (Z.pos b))) by (rewrite fr_flip, R, rnd_opp; ring).
    rewrite (Z_of_float_flip _ _ (T _ F' R')). change (Z.neg a) with (- Z.pos a). rewrite Z.quot_opp_l, Z.quot_div_nonneg by lia. reflexivity.
Qed.

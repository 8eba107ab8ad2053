(** Weeks and decimal texts. *)
From Verif Require Import Base PyVal Utils_Model Utils_Spec Utils_Proofs Dec_Proofs Str_Model Date_Spec Date_Model Date_Proofs Fmt_Spec Fmt_Model.
Open Scope Z_scope.

Lemma first_day : is_day (1, 1, 1). Proof. cbn; lia. Qed.
Lemma weekday_ord : forall d w, is_day d -> (weekday d w <-> w = (ord d - 1) mod 7).
Proof.
  intros d w I. unfold weekday. split.
  - intros (n & A & ->). apply (days_after_ord n _ _ first_day I) in A. change (ord (1, 1, 1)) with 1 in A. f_equal. lia.
  - intros ->. pose proof (ord_pos d I). exists (Z.to_nat (ord d - 1)). split; [|f_equal; lia]. apply (days_after_ord _ _ _ first_day I). change (ord (1, 1, 1)) with 1. lia.
Qed.
Lemma weekday_is_day : forall d w, weekday d w -> is_day d.
Proof. intros d w (n & <- & _). apply iter_is_day, first_day. Qed.
(** Day of the year, from 0. *)
Definition yday (d : day) : Z := ord d - ord (year_of d, 1, 1).
Lemma new_year_ord : forall y, ord (y, 1, 1) = days_before_year y + 1.
Proof. intro y. cbn [ord]. unfold ymd2ord. change (days_before_month y 1) with 0. lia. Qed.
Lemma yday_eq : forall y m d, yday (y, m, d) = days_before_month y m + d - 1.
Proof. intros. unfold yday. cbn [year_of fst]. rewrite new_year_ord. cbn [ord]. unfold ymd2ord. lia. Qed.
Lemma yday_bounds : forall d, is_day d -> 0 <= yday d < 365 + yleap (year_of d).
Proof. intros [[y m] d] (Hy & Hm & Hd). rewrite yday_eq. cbn [year_of fst]. apply dbm_bounds; assumption. Qed.
Lemma new_year_next : forall y, ord (y + 1, 1, 1) = ord (y, 1, 1) + 365 + yleap y.
Proof. intro y. rewrite !new_year_ord, dby_step. lia. Qed.
Lemma year_between : forall d y, is_day d -> ord (y, 1, 1) <= ord d < ord (y + 1, 1, 1) -> year_of d = y.
Proof.
  intros d y I H. pose proof (yday_bounds d I) as B. unfold yday in B. pose proof (new_year_next (year_of d)) as N. rewrite !new_year_ord in *.
  destruct (Z.lt_trichotomy (year_of d) y) as [L|[E|L]]; [|exact E|]; exfalso.
  - pose proof (dby_mono (year_of d + 1) y ltac:(lia)). lia.
  - pose proof (dby_mono (y + 1) (year_of d) ltac:(lia)). lia.
Qed.
Lemma new_year_day : forall d, is_day d -> is_day (year_of d, 1, 1).
Proof. intros [[y m] d] (Hy & _). cbn in *. lia. Qed.

(** The number of a week by arithmetic. *)
Definition week_at (first k w : Z) : Z := (k + 7 - (w - first) mod 7) / 7.
Lemma week_start : forall first w, 0 <= first < 7 -> 0 <= w < 7 -> week_at first 0 w = if w =? first then 1 else 0.
Proof. intros first w F W. unfold week_at. destruct (Z.eqb_spec w first); Z.to_euclidean_division_equations; lia. Qed.
Lemma week_step : forall first k w, 0 <= first < 7 -> 0 <= w < 7 -> week_at first (k + 1) ((w + 1) mod 7) = if (w + 1) mod 7 =? first then week_at first k w + 1 else week_at first k w.
Proof. intros first k w F W. unfold week_at. destruct (Z.eqb_spec ((w + 1) mod 7) first); Z.to_euclidean_division_equations; lia. Qed.
Definition wd (d : day) : Z := (ord d - 1) mod 7.
Lemma wd_bounds : forall d, 0 <= wd d < 7. Proof. intro d. apply Z.mod_pos_bound. lia. Qed.
Lemma wd_next : forall d, is_day d -> wd (next_day d) = (wd d + 1) mod 7.
Proof. intros d I. unfold wd. rewrite ord_next by exact I. rewrite Zplus_mod_idemp_l. f_equal. lia. Qed.
Lemma week_number_iff : forall first d n, 0 <= first < 7 -> is_day d -> (week_number first d n <-> n = week_at first (yday d) (wd d)).
Proof.
  intros first d n F I. split.
  - intro W. induction W as [y w W|d n w W IH E Hw].
    + pose proof (weekday_is_day _ _ W) as I1. apply (weekday_ord _ _ I1) in W. subst w. unfold yday. cbn [year_of fst]. rewrite Z.sub_diag.
      rewrite week_start by (auto using wd_bounds). reflexivity.
    + assert (Id : is_day d).
      { clear - W. destruct W as [y w W|d n w _ _ W]; eapply weekday_is_day; exact W. }
      rewrite (IH Id). apply (weekday_ord _ _ I) in Hw. subst w. change ((ord (next_day d) - 1) mod 7) with (wd (next_day d)).
      assert (yday (next_day d) = yday d + 1) as -> by (unfold yday; rewrite E, ord_next by exact Id; lia).
      rewrite wd_next by exact Id. rewrite week_step by (auto using wd_bounds). reflexivity.
  - intros ->. remember (Z.to_nat (yday d)) as k eqn:K. revert d I K. induction k as [|k IH]; intros d I K.
    + pose proof (yday_bounds d I) as B. assert (yday d = 0) as Y0 by lia. rewrite Y0.
      assert (d = (year_of d, 1, 1)) as E by (apply ord_inj; auto using new_year_day; unfold yday in Y0; lia).
      rewrite week_start by (auto using wd_bounds). rewrite E at 1. apply wn_new_year. rewrite <- E. apply weekday_ord; auto.
    + pose proof (yday_bounds d I) as B. pose proof (new_year_day d I) as IN. pose proof (ord_pos _ IN) as P. assert (O : ord d = ord (year_of d, 1, 1) + yday d) by (unfold yday; lia).
      destruct (ord_of (ord d - 1) ltac:(lia)) as [I' O']. set (e := ord2ymd (ord d - 1)) in *.
      assert (E : next_day e = d) by (apply ord_inj; auto using next_is_day; rewrite ord_next by exact I'; lia).
      assert (Y : year_of e = year_of d) by (apply year_between; [exact I'|rewrite new_year_next; lia]).
      assert (Ye : yday e = yday d - 1) by (unfold yday; rewrite Y; lia).
      pose proof (wd_next e I') as W. rewrite E in W. pose proof (week_step first (yday e) (wd e) F (wd_bounds e)) as St. rewrite <- W, Ye in St.
      replace (yday d - 1 + 1) with (yday d) in St by lia. rewrite St, <- Ye, <- E. apply wn_next; [apply IH; [exact I'|lia]|rewrite E; congruence|].
      rewrite E. apply weekday_ord; auto.
Qed.

(** ** Decimal texts *)
Lemma digits_fuel_length : forall f z acc k, 0 <= z < 10 ^ Z.of_nat k -> (0 < k)%nat -> (length (digits_fuel f z acc) <= k + length acc)%nat.
Proof.
  induction f as [|f IH]; intros z acc k Hz Hk; cbn [digits_fuel]; [lia|]. destruct (z <? 10) eqn:E; [cbn [length]; lia|]. apply Z.ltb_ge in E.
  destruct k as [|[|k]]; [lia|cbn in Hz; lia|].
  assert (0 <= z / 10 < 10 ^ Z.of_nat (S k)).
  { replace (Z.of_nat (S (S k))) with (1 + Z.of_nat (S k)) in Hz by lia. rewrite Z.pow_add_r in Hz by lia. split; [apply Z.div_pos; lia|]. apply Z.div_lt_upper_bound; lia. }
  specialize (IH (z / 10) (digit_char (z mod 10) :: acc) (S k) H ltac:(lia)). cbn [length] in IH. lia.
Qed.
Lemma decval_zeros : forall n s, decval (repeat 48%N n ++ s) = decval s.
Proof. intros n s. unfold decval. rewrite fold_left_app. f_equal. induction n as [|n IH]; [reflexivity|]. cbn [repeat fold_left]. exact IH. Qed.
Lemma pad_shows : forall n z, (0 < n)%nat -> 0 <= z < 10 ^ Z.of_nat n -> shows n z (pad n z).
Proof.
  intros n z Hn Hz. unfold pad, shows. cbv zeta. assert (str_of_Z z = str_of_nonneg z) as -> by (unfold str_of_Z; destruct (Z.ltb_spec z 0); [lia|reflexivity]).
  destruct (str_of_nonneg_spec z ltac:(lia)) as [[_ D] V].
  pose proof (digits_fuel_length (S (Z.to_nat (Z.log2 z))) z [] n Hz Hn) as L. cbn [length] in L. unfold str_of_nonneg in *. split; [|split].
  - rewrite app_length, repeat_length. lia.
  - apply Forall_app. split; [|exact D]. apply Forall_forall. intros c I. apply repeat_spec in I. subst c. unfold Utils_Spec.digit. lia.
  - rewrite decval_zeros. exact V.
Qed.
Lemma decval_bound : forall s, Forall Utils_Spec.digit s -> 0 <= decval s < 10 ^ Z.of_nat (length s).
Proof.
  intros s F. induction s as [|c s IH] using rev_ind; [cbn; lia|]. apply Forall_app in F. destruct F as [F Fc]. inversion Fc as [|x y Dc _]; subst.
  rewrite decval_snoc, app_length. cbn [length]. rewrite Nat2Z.inj_add, Z.pow_add_r by lia. specialize (IH F). unfold Utils_Spec.digit in Dc. change (10 ^ Z.of_nat 1) with 10. lia.
Qed.
Lemma year_shows : forall y, 1000 <= y <= 9999 -> shows 4 y (str_of_Z y).
Proof.
  intros y H. pose proof (pad_shows 4 y ltac:(lia) ltac:(cbn; lia)) as (L & D & V). unfold pad in *. cbv zeta in *.
  assert (str_of_Z y = str_of_nonneg y) as E by (unfold str_of_Z; destruct (Z.ltb_spec y 0); [lia|reflexivity]). rewrite E in *.
  destruct (str_of_nonneg_spec y ltac:(lia)) as [[_ D'] V']. split; [|split; assumption].
  pose proof (decval_bound _ D') as B. rewrite V' in B. rewrite app_length, repeat_length in L.
  destruct (le_lt_dec 4 (length (str_of_nonneg y))); [lia|]. exfalso.
  assert (10 ^ Z.of_nat (length (str_of_nonneg y)) <= 10 ^ 3) by (apply Z.pow_le_mono_r; lia). cbn in *. lia.
Qed.
Lemma int_of_digits : forall s, s <> [] -> Forall Utils_Spec.digit s -> int_of_text s = Ok (decval s).
Proof.
  intros s N D. apply int_of_text_literal. exists [], [], [s], []. cbn [join_us concat app]. rewrite !app_nil_r. repeat split; auto; try discriminate. repeat constructor; auto.
Qed.

(** ** Fields *)
Lemma weekday_eq : forall x, mysql_weekday x = wd (day_of x).
Proof. intro x. unfold mysql_weekday, wd. cbn [ord day_of]. replace (ymd2ord (yr x) (mo x) (dy x) + 6) with (ymd2ord (yr x) (mo x) (dy x) - 1 + 1 * 7) by lia. apply Z.mod_add. lia. Qed.
Lemma tm_wday_eq : forall x, tm_wday x = (wd (day_of x) + 1) mod 7.
Proof. intro x. unfold tm_wday. rewrite weekday_eq. reflexivity. Qed.
Lemma tm_yday_eq : forall x, tm_yday x = yday (day_of x).
Proof. intro x. unfold day_of. rewrite yday_eq. reflexivity. Qed.
Lemma year_days_eq : forall y, year_days y = 365 + yleap y.
Proof. intro y. unfold year_days, yleap. rewrite <- leap_agree. destruct (py_is_leap y); reflexivity. Qed.
Lemma micros_bounds : forall x, is_moment x -> 0 <= micros x < 86400000000.
Proof. intros x (_ & _ & H). unfold micros. destruct (us x); [exact H|lia]. Qed.
Lemma clock_of : forall x, is_moment x -> clock (micros x) (tm_hour x) (tm_min x) (tm_sec x) (micros x mod 1000000) /\ 0 <= tm_hour x < 24.
Proof. intros x I. pose proof (micros_bounds x I). unfold clock, tm_hour, tm_min, tm_sec. Z.to_euclidean_division_equations; lia. Qed.
Lemma iso_formula : forall k w, 0 <= w < 7 -> iso_week_days k ((w + 1) mod 7) = 7 * ((k + 3 - w) / 7) + w.
Proof. intros k w W. unfold iso_week_days. Z.to_euclidean_division_equations; lia. Qed.
Lemma iso_days_spec : forall x, is_moment x -> exists n, iso_week (day_of x) n /\ n = iso_days x / 7 + 1 /\ 1 <= n <= 53.
Proof.
  intros x (I & Hy & _). set (d := day_of x) in *. pose proof (wd_bounds d) as W. pose proof (ord_pos d I) as P.
  assert (OW : ord d - 1 - wd d = 7 * ((ord d - 1) / 7)) by (unfold wd; Z.to_euclidean_division_equations; lia).
  assert (0 <= (ord d - 1) / 7) by (apply Z.div_pos; lia).
  destruct (ord_of (ord d + 3 - wd d) ltac:(lia)) as [It Ot]. set (e := ord2ymd (ord d + 3 - wd d)) in *.
  assert (We : wd e = 3) by (unfold wd at 1; rewrite Ot; Z.to_euclidean_division_equations; lia).
  exists (week_at 3 (yday e) 3).
  pose proof (yday_bounds d I) as Bd. pose proof (yday_bounds e It) as Be.
  assert (Eq : week_at 3 (yday e) 3 = yday e / 7 + 1) by (unfold week_at; Z.to_euclidean_division_equations; lia).
  assert (Yl : forall y, 0 <= yleap y <= 1) by (intro y; unfold yleap; destruct (leap_year y); lia).
  split; [|split].
  - exists (wd d), (Z.to_nat (Z.abs (3 - wd d))), e. split; [apply weekday_ord; auto|]. split; [apply weekday_ord; auto|]. split; [apply week_number_iff; auto; [lia|rewrite We; reflexivity]|].
    split; [lia|]. destruct (Z_le_gt_dec (wd d) 3).
    + left. split; [lia|]. split; [|lia]. apply (days_after_ord _ _ _ I It). lia.
    + right. split; [lia|]. split; [|lia]. apply (days_after_ord _ _ _ It I). lia.
  - rewrite Eq. f_equal. unfold iso_days. rewrite tm_yday_eq, tm_wday_eq. fold d. rewrite !iso_formula by exact W. rewrite !year_days_eq.
    change (yr x) with (year_of d). set (y := year_of d) in *.
    assert (Od : ord d = ord (y, 1, 1) + yday d) by (unfold yday; fold y; lia).
    assert (Oe : ord e = ord (year_of e, 1, 1) + yday e) by (unfold yday; lia).
    pose proof (new_year_next y) as N1. pose proof (new_year_next (y - 1)) as N0. replace (y - 1 + 1) with y in N0 by lia. pose proof (new_year_next (y + 1)) as N2.
    pose proof (Yl y). pose proof (Yl (y - 1)). pose proof (Yl (y + 1)).
    destruct (Z_lt_ge_dec (yday d + 3 - wd d) 0) as [L|L].
    + assert (year_of e = y - 1) as Ye by (apply year_between; [exact It|replace (y - 1 + 1) with y by lia; lia]).
      rewrite Ye in Oe. assert (7 * ((yday d + 3 - wd d) / 7) + wd d <? 0 = true) as -> by (apply Z.ltb_lt; Z.to_euclidean_division_equations; lia).
      assert (yday e = yday d + (365 + yleap (y - 1)) + 3 - wd d) as -> by lia. Z.to_euclidean_division_equations; lia.
    + assert (7 * ((yday d + 3 - wd d) / 7) + wd d <? 0 = false) as -> by (apply Z.ltb_ge; Z.to_euclidean_division_equations; lia). cbv zeta.
      destruct (Z_lt_ge_dec (yday d - (365 + yleap y) + 3 - wd d) 0) as [L'|L'].
      * assert (year_of e = y) as Ye by (apply year_between; [exact It|lia]). rewrite Ye in Oe.
        assert (0 <=? 7 * ((yday d - (365 + yleap y) + 3 - wd d) / 7) + wd d = false) as -> by (apply Z.leb_gt; Z.to_euclidean_division_equations; lia).
        assert (yday e = yday d + 3 - wd d) as -> by lia. Z.to_euclidean_division_equations; lia.
      * assert (year_of e = y + 1) as Ye by (apply year_between; [exact It|lia]). rewrite Ye in Oe.
        assert (0 <=? 7 * ((yday d - (365 + yleap y) + 3 - wd d) / 7) + wd d = true) as -> by (apply Z.leb_le; Z.to_euclidean_division_equations; lia).
        assert (yday e = yday d - (365 + yleap y) + 3 - wd d) as -> by lia. Z.to_euclidean_division_equations; lia.
  - rewrite Eq. pose proof (Yl (year_of e)). Z.to_euclidean_division_equations; lia.
Qed.

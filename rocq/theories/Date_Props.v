(** C27, C28: date and time arithmetic.

    [day_of x] is the calendar day of a value, [us x] its microseconds since midnight (none for a DATE);
    [is_moment x]: a day of years 1 to 9999 and a time of day. [put x d]: the value with day [d] and the time of [x], or
    NULL when the year is outside 1..9999. *)
From Verif Require Import Base PyVal Utils_Model Agg_Model Date_Model Date_Spec Date_Proofs Float_Proofs.
From Verif Require Utils_Spec.
Open Scope Z_scope.

(** ** Months *)
Definition names (u : text) (name : text) : Prop := map upper_ascii u = name.
(** INTERVAL v MONTH or v QUARTER as months. *)
Definition in_months (u : text) (v k : Z) : Prop := names u (t "MONTH") /\ k = v \/ names u (t "QUARTER") /\ k = 3 * v.
Definition month_of (d : day) : Z := let '(_, m, _) := d in m.

Lemma months_calc : forall x y m k, is_moment x -> 12 * yr x + (mo x - 1) + k = 12 * y + (m - 1) -> 1 <= m <= 12 ->
  months_later k (day_of x) = (y, m, Z.min (dy x) (month_length y m)).
Proof.
  intros x y m k _ E Hm. unfold day_of, months_later. rewrite E.
  destruct (div_is (12 * y + (m - 1)) 12 y (m - 1)) as [-> ->]; [lia..|]. replace (m - 1 + 1) with m by ring. reflexivity.
Qed.
Lemma calculate_months : forall s x u v k, in_months u v k ->
  match calculate s x (map upper_ascii u) v with Ok z => z | Err _ => None end =
  match (do f <- py_div (VInt k) (VInt 12); py_int f) with
  | Ok (VInt q) =>
    let '(y, m) := if s
         then (yr x - q - (if mo x - k mod 12 <? 1 then 1 else 0), mo x - k mod 12 + (if mo x - k mod 12 <? 1 then 12 else 0))
         else (yr x + q + (if 12 <? mo x + k mod 12 then 1 else 0), (mo x + k mod 12) mod 12) in
    match replace_ymd x y m (dy x) with Ok z => Some z | Err _ => earlier_day (Z.to_nat (dy x)) x y m (dy x - 1) end
  | _ => None
  end.
Proof.
  intros s x u v k [[U K]|[U K]]; unfold names in U; rewrite U; unfold calculate.
  - change (text_eqb (t "MONTH") (t "YEAR")) with false. change (text_eqb (t "MONTH") (t "QUARTER")) with false.
    change (text_eqb (t "MONTH") (t "MONTH")) with true. cbn [orb]. subst v.
    destruct (py_div (VInt k) (VInt 12)) as [f|]; [|reflexivity]. cbn [bind]. destruct (py_int f) as [q|]; [|reflexivity]. cbn [bind].
    destruct q; try reflexivity. cbn [bind]. destruct s; destruct (replace_ymd _ _ _ _); reflexivity.
  - change (text_eqb (t "QUARTER") (t "YEAR")) with false. change (text_eqb (t "QUARTER") (t "QUARTER")) with true.
    cbn [orb]. replace (v * 3) with k by lia.
    destruct (py_div (VInt k) (VInt 12)) as [f|]; [|reflexivity]. cbn [bind]. destruct (py_int f) as [q|]; [|reflexivity]. cbn [bind].
    destruct q; try reflexivity. cbn [bind]. destruct s; destruct (replace_ymd _ _ _ _); reflexivity.
Qed.
Lemma put_out : forall x y m d, ~ 1 <= y <= 9999 -> put x (y, m, d) = None.
Proof.
  intros. unfold put. destruct (Z.leb_spec 1 y), (Z.leb_spec y 9999); try reflexivity. lia.
Qed.

(** The code's result for every number of months: NULL when the month reached is December; a year too late for a negative
    number of months that is no multiple of 12; otherwise the day [k] months later. *)
Theorem month_add_exact : forall x u v k, is_moment x -> in_months u v k ->
  date_add x (Named u v) =
  if month_of (months_later k (day_of x)) =? 12 then None
  else put x (months_later (if (0 <=? k) || (k mod 12 =? 0) then k else k + 12) (day_of x)).
Proof.
  intros x u v k M I. unfold date_add, date_shift. rewrite (calculate_months false x u v k I). clear u v I.
  pose proof M as ((Hy & Hm & Hd) & Hy' & _). set (r := k mod 12). set (fl := k / 12).
  pose proof (Z.div_mod k 12 ltac:(lia)) as D. pose proof (Z.mod_pos_bound k 12 ltac:(lia)) as B. fold r fl in D, B.
  set (m' := if mo x + r <=? 12 then mo x + r else mo x + r - 12).
  set (c := if mo x + r <=? 12 then 0 else 1).
  assert (Hm' : 1 <= m' <= 12) by (unfold m'; destruct (Z.leb_spec (mo x + r) 12); lia).
  assert (E : forall j, months_later (k + 12 * j) (day_of x) = (yr x + fl + j + c, m', Z.min (dy x) (month_length (yr x + fl + j + c) m'))).
  { intro j. apply months_calc; [exact M| |exact Hm']. unfold m', c. destruct (mo x + r <=? 12); lia. }
  pose proof (E 0) as E0. rewrite Z.mul_0_r, Z.add_0_r in E0. rewrite E0. cbn [month_of].
  set (j := if (0 <=? k) || (r =? 0) then 0 else 1).
  assert (EJ : months_later (if (0 <=? k) || (r =? 0) then k else k + 12) (day_of x) = (yr x + fl + j + c, m', Z.min (dy x) (month_length (yr x + fl + j + c) m'))).
  { unfold j. destruct ((0 <=? k) || (r =? 0)); [rewrite <- E; f_equal; ring|rewrite <- E; f_equal; ring]. }
  rewrite EJ.
  assert (Q : fl + j = Z.quot k 12).
  { unfold j. destruct (Z.leb_spec 0 k); cbn [orb]; [rewrite Z.quot_div_nonneg by lia; lia|].
    assert (Z.quot k 12 = - ((- k) / 12)) as -> by (rewrite <- (Z.opp_involutive k) at 1; rewrite Z.quot_opp_l, Z.quot_div_nonneg by lia; reflexivity).
    destruct (Z.eqb_spec r 0).
    - destruct (div_is (- k) 12 (- fl) 0) as [-> _]; lia.
    - destruct (div_is (- k) 12 (- fl - 1) (12 - r)) as [-> _]; lia. }
  assert (NM : (mo x + r) mod 12 = if m' =? 12 then 0 else m').
  { unfold m' in *. destruct (Z.leb_spec (mo x + r) 12).
    - destruct (Z.eqb_spec (mo x + r) 12) as [->|]; [reflexivity|]. apply Z.mod_small. lia.
    - destruct (Z.eqb_spec (mo x + r - 12) 12); [lia|]. destruct (div_is (mo x + r) 12 1 (mo x + r - 12)) as [_ ->]; lia. }
  assert (NC : (if 12 <? mo x + r then 1 else 0) = c).
  { unfold c. destruct (Z.leb_spec (mo x + r) 12), (Z.ltb_spec 12 (mo x + r)); lia. }
  destruct (Z_le_gt_dec (Z.abs k) (2 ^ 51)) as [S|S].
  - rewrite div_quot by (change (2 ^ 52) with (2 * 2 ^ 51); lia). rewrite NM, NC. replace (yr x + Z.quot k 12 + c) with (yr x + fl + j + c) by lia.
    destruct (Z.eqb_spec m' 12) as [E12|N12].
    + rewrite replace_ok. replace ((1 <=? 0)) with false by reflexivity. rewrite andb_false_r. cbn [andb]. apply earlier_bad. lia.
    + apply clamp; [exact M|exact Hm'].
  - assert (PO : put x (yr x + fl + j + c, m', Z.min (dy x) (month_length (yr x + fl + j + c) m')) = None).
    { apply put_out. change (2 ^ 51) with 2251799813685248 in S. unfold j, c. destruct (_ || _), (_ <=? _); lia. }
    rewrite PO. replace (if m' =? 12 then None else None) with (@None moment) by (destruct (m' =? 12); reflexivity).
    destruct (div_large k 12 (2 ^ 40) ltac:(lia) ltac:(lia)) as [[e ->]|(z & -> & Z1 & Z2)].
    + change (2 ^ 51) with (2 ^ 40 * 2048) in S. lia.
    + reflexivity.
    + rewrite NC. set (m0 := (mo x + r) mod 12).
      assert (YO : ~ (1 <= yr x + z + c <= 9999 /\ 1 <= m0 <= 12)).
      { change (2 ^ 40) with 1099511627776 in Z1. change (2 ^ 51) with 2251799813685248 in S. unfold c. destruct (mo x + r <=? 12); nia. }
      rewrite (earlier_bad _ _ _ _ _ YO). rewrite replace_ok.
      assert ((1 <=? yr x + z + c) && (yr x + z + c <=? 9999) && (1 <=? m0) && (m0 <=? 12) = false) as ->.
      { apply not_true_iff_false. intro T. apply YO. rewrite !andb_true_iff, !Z.leb_le in T. lia. }
      reflexivity.
Qed.
Theorem month_sub_exact : forall x u v k, is_moment x -> in_months u v k ->
  date_sub x (Named u v) = put x (months_later (if (0 <=? k) || (k mod 12 =? 0) then - k else - k - 12) (day_of x)).
Proof.
  intros x u v k M I. unfold date_sub, date_shift. rewrite (calculate_months true x u v k I). clear u v I.
  pose proof M as ((Hy & Hm & Hd) & Hy' & _). set (r := k mod 12). set (fl := k / 12).
  pose proof (Z.div_mod k 12 ltac:(lia)) as D. pose proof (Z.mod_pos_bound k 12 ltac:(lia)) as B. fold r fl in D, B.
  set (c := if mo x - r <? 1 then 1 else 0).
  set (m' := mo x - r + (if mo x - r <? 1 then 12 else 0)).
  assert (Hm' : 1 <= m' <= 12) by (unfold m'; destruct (Z.ltb_spec (mo x - r) 1); lia).
  set (j := if (0 <=? k) || (r =? 0) then 0 else 1).
  assert (EJ : months_later (if (0 <=? k) || (r =? 0) then - k else - k - 12) (day_of x) =
               (yr x - fl - j - c, m', Z.min (dy x) (month_length (yr x - fl - j - c) m'))).
  { apply months_calc; [exact M| |exact Hm']. unfold m', c, j. destruct (_ || _), (mo x - r <? 1); lia. }
  rewrite EJ.
  assert (Q : fl + j = Z.quot k 12).
  { unfold j. destruct (Z.leb_spec 0 k); cbn [orb]; [rewrite Z.quot_div_nonneg by lia; lia|].
    assert (Z.quot k 12 = - ((- k) / 12)) as -> by (rewrite <- (Z.opp_involutive k) at 1; rewrite Z.quot_opp_l, Z.quot_div_nonneg by lia; reflexivity).
    destruct (Z.eqb_spec r 0).
    - destruct (div_is (- k) 12 (- fl) 0) as [-> _]; lia.
    - destruct (div_is (- k) 12 (- fl - 1) (12 - r)) as [-> _]; lia. }
  destruct (Z_le_gt_dec (Z.abs k) (2 ^ 51)) as [S|S].
  - rewrite div_quot by (change (2 ^ 52) with (2 * 2 ^ 51); lia). fold c m'. replace (yr x - Z.quot k 12 - c) with (yr x - fl - j - c) by lia.
    apply clamp; [exact M|exact Hm'].
  - assert (PO : put x (yr x - fl - j - c, m', Z.min (dy x) (month_length (yr x - fl - j - c) m')) = None).
    { apply put_out. change (2 ^ 51) with 2251799813685248 in S. unfold j, c. destruct (_ || _), (_ <? _); lia. }
    rewrite PO. destruct (div_large k 12 (2 ^ 40) ltac:(lia) ltac:(lia)) as [[e ->]|(z & -> & Z1 & Z2)].
    + change (2 ^ 51) with (2 ^ 40 * 2048) in S. lia.
    + reflexivity.
    + fold c m'.
      assert (YO : ~ (1 <= yr x - z - c <= 9999 /\ 1 <= m' <= 12)).
      { change (2 ^ 40) with 1099511627776 in Z1. change (2 ^ 51) with 2251799813685248 in S. unfold c. destruct (mo x - r <? 1); nia. }
      rewrite (earlier_bad _ _ _ _ _ YO). rewrite replace_ok.
      assert ((1 <=? yr x - z - c) && (yr x - z - c <=? 9999) && (1 <=? m') && (m' <=? 12) = false) as ->.
      { apply not_true_iff_false. intro T. apply YO. rewrite !andb_true_iff, !Z.leb_le in T. lia. }
      reflexivity.
Qed.

(** date + INTERVAL k MONTH for k >= 0, except when the month reached is December;
    date - INTERVAL k MONTH for every k >= 0. *)
Theorem month_add_documented : forall x u v k, is_moment x -> in_months u v k -> 0 <= k ->
  month_of (months_later k (day_of x)) <> 12 ->
  date_add x (Named u v) = put x (months_later k (day_of x)).
Proof.
  intros x u v k M I K N. rewrite (month_add_exact x u v k M I). destruct (Z.eqb_spec (month_of (months_later k (day_of x))) 12); [contradiction|].
  destruct (Z.leb_spec 0 k); [reflexivity|lia].
Qed.
Theorem month_sub_documented : forall x u v k, is_moment x -> in_months u v k -> 0 <= k ->
  date_sub x (Named u v) = put x (months_later (- k) (day_of x)).
Proof.
  intros x u v k M I K. rewrite (month_sub_exact x u v k M I). destruct (Z.leb_spec 0 k); [reflexivity|lia].
Qed.
Example month_add_example :
  is_moment (mkmoment 2024 1 31 None) /\ in_months (t "month") 1 1 /\
  date_add (mkmoment 2024 1 31 None) (Named (t "month") 1) = Some (mkmoment 2024 2 29 None) /\
  date_sub (mkmoment 2024 1 31 (Some 5)) (Named (t "Quarter") 3) = Some (mkmoment 2023 4 30 (Some 5)).
Proof.
  split; [repeat split; cbn; lia|]. split; [left; split; reflexivity|].
  split; [rewrite (month_add_documented _ _ _ 1)|rewrite (month_sub_documented _ _ _ 9)]; try reflexivity; try (cbn; lia);
    first [repeat split; cbn; lia|left; split; reflexivity|right; split; reflexivity].
Qed.
(** 2024-01-15 + 11 MONTH is NULL; 2024-03-15 + (-1) MONTH is 2025-02-15. *)
Theorem month_december_refuted :
  date_add (mkmoment 2024 1 15 None) (Named (t "MONTH") 11) = None /\ months_later 11 (2024, 1, 15) = (2024, 12, 15).
Proof. split; vm_compute; reflexivity. Qed.
Theorem month_negative_refuted :
  date_add (mkmoment 2024 3 15 None) (Named (t "MONTH") (-1)) = Some (mkmoment 2025 2 15 None) /\
  months_later (-1) (2024, 3, 15) = (2024, 2, 15).
Proof. split; vm_compute; reflexivity. Qed.

(** Years: right except that 29 February moved to a common year is NULL (SQL: 28 February). *)
Theorem year_exact : forall x u v s, is_moment x -> names u (t "YEAR") ->
  let d' := months_later (if s : bool then - (12 * v) else 12 * v) (day_of x) in
  date_shift s x (Named u v) = if (let '(_, _, d) := d' in d =? dy x) then put x d' else None.
Proof.
  intros x u v s M U d'. unfold date_shift. unfold names in U. rewrite U. unfold calculate.
  change (text_eqb (t "YEAR") (t "YEAR")) with true. cbn iota.
  pose proof M as ((Hy & Hm & Hd) & Hy' & _).
  set (y := if s then yr x - v else yr x + v).
  assert (E : d' = (y, mo x, Z.min (dy x) (month_length y (mo x)))).
  { apply months_calc; [exact M| |exact Hm]. unfold y. destruct s; lia. }
  rewrite E. rewrite replace_ok. unfold put. 
  assert ((1 <=? mo x) && (mo x <=? 12) && (1 <=? dy x) = true) as X by (rewrite !andb_true_iff, !Z.leb_le; lia).
  destruct ((1 <=? y) && (y <=? 9999)) eqn:Y; cbn [andb].
  - rewrite X. cbn [andb]. destruct (Z.leb_spec (dy x) (month_length y (mo x))).
    + rewrite Z.min_l by lia. rewrite Z.eqb_refl. reflexivity.
    + destruct (Z.eqb_spec (Z.min (dy x) (month_length y (mo x))) (dy x)); [lia|]. reflexivity.
  - cbn [bind]. destruct (_ =? _); reflexivity.
Qed.
Theorem leap_day_refuted : date_add (mkmoment 2024 2 29 None) (Named (t "YEAR") 1) = None /\
  months_later 12 (2024, 2, 29) = (2025, 2, 28).
Proof. split; vm_compute; reflexivity. Qed.

(** ** Units of fixed length *)
Definition unit_name (u : unit) : text :=
  match u with Week => t "WEEK" | Day => t "DAY" | Hour => t "HOUR" | Minute => t "MINUTE" | Second => t "SECOND" end.
(** What the interval operand says: microseconds. *)
Definition duration (i : interval) (k : Z) : Prop :=
  match i with
  | Count n => k = n * 86400 * 1000000
  | Named u v => exists n, names u (unit_name n) /\ k = v * unit_seconds n * 1000000
  | Spelled _ => False
  end.
Lemma shift_duration : forall s x i k, duration i k -> date_shift s x i =
  match (if s then sub_td x k else add_td x k) with Ok z => Some z | Err _ => None end.
Proof.
  intros s x i k H. destruct i as [n|u v|]; cbn [duration] in H; [subst k| |contradiction].
  - unfold date_shift. replace (n * 86400 * 1000000) with (n * DAY_US) by (unfold DAY_US; ring). destruct s; reflexivity.
  - destruct H as (n & U & K). unfold names in U. unfold date_shift. rewrite U. unfold calculate.
    assert (A : assoc (unit_name n) TIMEDELTA_UNITS = Some (unit_seconds n)) by (destruct n; reflexivity). rewrite A.
    assert (text_eqb (unit_name n) (t "YEAR") = false) as -> by (destruct n; reflexivity).
    assert (text_eqb (unit_name n) (t "QUARTER") || text_eqb (unit_name n) (t "MONTH") = false) as -> by (destruct n; reflexivity).
    replace (unit_seconds n * v * 1000000) with k by (rewrite K; ring). destruct s.
    + destruct (sub_td x k); reflexivity.
    + destruct (add_td x k); reflexivity.
Qed.

(** A datetime plus (minus) an interval is the moment the interval's time later (earlier), and NULL exactly when no such
    moment exists in years 1 to 9999. *)
Theorem fixed_unit_shift : forall x u i k, is_moment x -> us x = Some u -> duration i k -> forall y,
  (date_add x i = Some y <-> exists v, is_moment y /\ us y = Some v /\ elapsed (day_of x) u (day_of y) v k) /\
  (date_sub x i = Some y <-> exists v, is_moment y /\ us y = Some v /\ elapsed (day_of x) u (day_of y) v (- k)).
Proof.
  intros x u i k M E D y. unfold date_add, date_sub. rewrite !(shift_duration _ x i k D), (sub_td_add x u k E).
  assert (G : forall k, match add_td x k with Ok z => Some z | Err _ => None end = Some y <->
     exists v, is_moment y /\ us y = Some v /\ elapsed (day_of x) u (day_of y) v k).
  { intro k0. pose proof (add_td_spec x u k0 y M E) as A. split; intro H.
    - assert (add_td x k0 = Ok y) as H' by (destruct (add_td x k0); [congruence|discriminate]). apply A in H'.
      destruct H' as (H1 & H2 & H3). destruct (us y) as [v|] eqn:V; [|contradiction]. exists v. split; [exact H1|]. split; [reflexivity|].
      apply elapsed_stamp; assumption.
    - destruct H as (v & H1 & H2 & H3). apply elapsed_stamp in H3; try assumption. assert (add_td x k0 = Ok y) as ->; [|reflexivity].
      apply A. split; [exact H1|]. split; [congruence|exact H3]. }
  split; apply G.
Qed.
(** For a DATE and an interval of whole days: the same in days. *)
Theorem fixed_unit_shift_date : forall x i n, is_moment x -> us x = None -> duration i (n * 86400 * 1000000) -> forall y,
  (date_add x i = Some y <-> is_moment y /\ us y = None /\ elapsed (day_of x) 0 (day_of y) 0 (n * 86400 * 1000000)) /\
  (date_sub x i = Some y <-> is_moment y /\ us y = None /\ elapsed (day_of x) 0 (day_of y) 0 (- (n * 86400 * 1000000))).
Proof.
  intros x i n M E D y. unfold date_add, date_sub. rewrite !(shift_duration _ x i _ D). unfold add_td, sub_td. rewrite E.
  replace (n * 86400 * 1000000) with (n * DAY_US) by (unfold DAY_US; ring). rewrite Z.div_mul by discriminate.
  change (ymd2ord (yr x) (mo x) (dy x)) with (ord (day_of x)).
  assert (G : forall n, match of_days (ord (day_of x) + n) None with Ok z => Some z | Err _ => None end = Some y <->
     is_moment y /\ us y = None /\ elapsed (day_of x) 0 (day_of y) 0 (n * DAY_US)).
  { intro k0. pose proof (date_td_spec x k0 y M E) as A.
    assert (EL : is_moment y -> (elapsed (day_of x) 0 (day_of y) 0 (k0 * DAY_US) <-> ord (day_of y) = ord (day_of x) + k0)).
    { intros (Iy & _ & _). destruct M as (Ix & _ & _). unfold elapsed. change day_us with DAY_US. unfold DAY_US. split.
      - intros (j & [[L H]|[L H]]); apply days_after_ord in L; try assumption; lia.
      - intro H. exists (Z.to_nat (Z.abs k0)). destruct (Z_le_gt_dec 0 k0); [left|right]; rewrite days_after_ord by assumption; lia. }
    split; intro H.
    - assert (of_days (ord (day_of x) + k0) None = Ok y) as H' by (destruct (of_days _ _); [congruence|discriminate]). apply A in H'.
      destruct H' as (H1 & H2 & H3). split; [exact H1|]. split; [exact H2|]. apply EL; assumption.
    - destruct H as (H1 & H2 & H3). apply EL in H3; [|exact H1]. assert (of_days (ord (day_of x) + k0) None = Ok y) as ->; [|reflexivity].
      apply A. auto. }
  split; [apply G|]. replace (- (n * DAY_US)) with (- n * DAY_US) by ring. apply G.
Qed.
(** Adding and then subtracting the same interval restores the value (and conversely). *)
Theorem shift_inverse : forall s x i k y, is_moment x -> duration i k ->
  date_shift s x i = Some y -> date_shift (negb s) y i = Some x.
Proof.
  intros s x i k y M D H. rewrite (shift_duration _ x i k D) in H. rewrite (shift_duration _ y i k D).
  destruct (us x) as [u|] eqn:E.
  - assert (K : add_td x (if s then - k else k) = Ok y).
    { destruct s; [rewrite (sub_td_add x u k E) in H|]; destruct (add_td x _); try discriminate H; injection H as ->; reflexivity. }
    apply (add_td_spec x u _ y M E) in K. destruct K as (K1 & K2 & K3). destruct (us y) as [v|] eqn:V; [|contradiction].
    assert (B : add_td y (if s then k else - k) = Ok x).
    { apply (add_td_spec y v _ x K1 V). split; [exact M|]. split; [congruence|]. destruct s; lia. }
    destruct s; cbn [negb]; [rewrite B; reflexivity|]. rewrite (sub_td_add y v k V), B. reflexivity.
  - assert (K : of_days (ord (day_of x) + (if s then - (k / DAY_US) else k / DAY_US)) None = Ok y).
    { unfold sub_td, add_td in H. rewrite E in H. change (ymd2ord (yr x) (mo x) (dy x)) with (ord (day_of x)) in H. unfold Z.sub in H.
      destruct s; destruct (of_days _ _); try discriminate H; injection H as ->; reflexivity. }
    apply (date_td_spec x _ y M E) in K. destruct K as (K1 & K2 & K3).
    assert (B : of_days (ord (day_of y) + (if s then k / DAY_US else - (k / DAY_US))) None = Ok x).
    { apply (date_td_spec y _ x K1 K2). split; [exact M|]. split; [exact E|]. destruct s; lia. }
    unfold sub_td, add_td. rewrite K2. change (ymd2ord (yr y) (mo y) (dy y)) with (ord (day_of y)). unfold Z.sub.
    destruct s; cbn [negb]; rewrite B; reflexivity.
Qed.
Example shift_example : is_moment (mkmoment 2024 2 28 (Some 86399000000)) /\
  duration (Named (t "second") 1) 1000000 /\
  date_add (mkmoment 2024 2 28 (Some 86399000000)) (Named (t "second") 1) = Some (mkmoment 2024 2 29 (Some 0)) /\
  date_add (mkmoment 9999 12 31 None) (Count 1) = None.
Proof.
  split; [repeat split; cbn; lia|]. split; [exists Second; split; reflexivity|]. split; vm_compute; reflexivity.
Qed.
(** INTERVAL n MICROSECOND moves by n seconds; a DATE plus hours stays the same DATE; the documented results differ. *)
Theorem microsecond_refuted :
  date_add (mkmoment 2024 1 1 (Some 0)) (Named (t "MICROSECOND") 1) = Some (mkmoment 2024 1 1 (Some 1000000)).
Proof. vm_compute; reflexivity. Qed.
Theorem date_plus_hours_refuted : date_add (mkmoment 2024 1 1 None) (Named (t "HOUR") 23) = Some (mkmoment 2024 1 1 None).
Proof. vm_compute; reflexivity. Qed.
(** Any other unit name (such as DAY_HOUR) is NULL. *)
Theorem unknown_unit_null : forall s x u v,
  ~ In (map upper_ascii u) [t "YEAR"; t "QUARTER"; t "MONTH"; t "WEEK"; t "DAY"; t "HOUR"; t "MINUTE"; t "SECOND"; t "MICROSECOND"] ->
  date_shift s x (Named u v) = None.
Proof.
  intros s x u v H. unfold date_shift, calculate. set (n := map upper_ascii u) in *. cbn [In] in H.
  assert (F : forall w, In w [t "YEAR"; t "QUARTER"; t "MONTH"; t "WEEK"; t "DAY"; t "HOUR"; t "MINUTE"; t "SECOND"; t "MICROSECOND"] -> text_eqb n w = false).
  { intros w I. apply text_eqb_neq. intros ->. apply H. exact I. }
  rewrite !F by (cbn [In]; tauto). cbn [orb]. unfold TIMEDELTA_UNITS. cbn [assoc].
  rewrite !F by (cbn [In]; tauto). reflexivity.
Qed.

Print Assumptions month_add_exact. Print Assumptions month_sub_exact. Print Assumptions month_add_documented. Print Assumptions month_sub_documented.
Print Assumptions month_december_refuted. Print Assumptions month_negative_refuted. Print Assumptions year_exact. Print Assumptions leap_day_refuted.
Print Assumptions fixed_unit_shift. Print Assumptions fixed_unit_shift_date. Print Assumptions shift_inverse.
Print Assumptions microsecond_refuted. Print Assumptions date_plus_hours_refuted. Print Assumptions unknown_unit_null.

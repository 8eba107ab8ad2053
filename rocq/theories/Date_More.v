(** C48-C50: intervals written as text, differences, parts of dates. *)
From Verif Require Import Base PyVal Utils_Model Agg_Model Date_Model Date_Spec Date_Proofs Float_Proofs Date_Props.
From Verif Require Utils_Spec.
From Coq Require Reals.
Open Scope Z_scope.

(** ** Differences *)
Lemma stamp_bounds : forall x, is_moment x -> DAY_US <= stamp x < (MAXORDINAL + 1) * DAY_US.
Proof.
  intros x (I & Y & U). pose proof (ord_pos _ I). unfold stamp. change (ymd2ord (yr x) (mo x) (dy x)) with (ord (day_of x)).
  apply (ord_year (yr x) (mo x) (dy x) I) in Y. change (ord (yr x, mo x, dy x)) with (ord (day_of x)) in Y.
  change day_us with DAY_US in U. unfold DAY_US, MAXORDINAL in *. destruct (us x); lia.
Qed.
Definition same_kind (a b : moment) : Prop := us a = None <-> us b = None.
Lemma diff_quot : forall a b s n, is_moment a -> is_moment b -> same_kind a b -> stamp b - stamp a = s * 1000000 -> 0 < n <= 2 ^ 30 ->
  (do x <- total_seconds a b; do q <- py_div x (VInt n); py_int q) = Ok (VInt (Z.quot s n)).
Proof.
  intros a b s n Ha Hb K E Hn. unfold total_seconds.
  assert (Bs : Z.abs s <= 2 ^ 40).
  { pose proof (stamp_bounds a Ha). pose proof (stamp_bounds b Hb). unfold DAY_US, MAXORDINAL in *. change (2 ^ 40) with 1099511627776. lia. }
  destruct (div_exact s 1000000) as (f & Ef & If); [lia|change (2 ^ 53) with (2 ^ 40 * 8192); lia|]. rewrite <- E in Ef.
  replace (match us a with Some _ => match us b with Some _ => py_div (VInt (stamp b - stamp a)) (VInt 1000000) | None => Err TypeError end
           | None => match us b with Some _ => Err TypeError | None => py_div (VInt (stamp b - stamp a)) (VInt 1000000) end end)
    with (py_div (VInt (stamp b - stamp a)) (VInt 1000000)).
  2: { unfold same_kind in K. destruct (us a), (us b); try reflexivity; exfalso; destruct K as [K1 K2]; try (specialize (K1 eq_refl)); try (specialize (K2 eq_refl)); discriminate. }
  rewrite Ef. cbn [bind].
  destruct (float_of_Z_is n) as (g & Eg & Ig); [change (2 ^ 53) with (2 ^ 30 * 8388608); lia|].
  unfold py_div. cbn [as_int as_float]. rewrite Eg. cbn [bind].
  assert (is_zero_float g = false) as ->.
  { destruct Ig as (_ & F & R). destruct g; try reflexivity. cbn in R. apply RIneq.eq_IZR in R. lia. }
  cbn [bind py_int]. rewrite (fdiv_quot f g s n If Ig); [reflexivity|lia|]. 
  change (2 ^ 52) with (2 ^ 40 * 4096). change (2 ^ 30) with 1073741824 in Hn. change (2 ^ 40) with 1099511627776 in *. lia.
Qed.

(** For b n days after a, DATEDIFF(a, b) is n and DATEDIFF(b, a) is -n: the opposite of SQL's DATEDIFF, which is the first
    argument minus the second. *)
Theorem datediff_reversed : forall a b n, is_moment a -> is_moment b -> us a = None -> us b = None ->
  days_after n (day_of a) (day_of b) ->
  mysql_datediff a b = Ok (VInt (Z.of_nat n)) /\ mysql_datediff b a = Ok (VInt (- Z.of_nat n)).
Proof.
  intros a b n Ha Hb Ea Eb D. apply days_after_ord in D; [|apply Ha|apply Hb].
  assert (S : stamp b - stamp a = (Z.of_nat n * 86400) * 1000000).
  { unfold stamp. rewrite Ea, Eb. change (ymd2ord (yr b) (mo b) (dy b)) with (ord (day_of b)). change (ymd2ord (yr a) (mo a) (dy a)) with (ord (day_of a)).
    unfold DAY_US. lia. }
  assert (S' : stamp a - stamp b = (- Z.of_nat n * 86400) * 1000000) by lia.
  unfold mysql_datediff. split.
  - rewrite (diff_quot a b (Z.of_nat n * 86400) 86400 Ha Hb); [rewrite Z.quot_mul by discriminate; reflexivity|split; congruence|exact S|lia].
  - rewrite (diff_quot b a (- Z.of_nat n * 86400) 86400 Hb Ha); [rewrite Z.quot_mul by discriminate; reflexivity|split; congruence|exact S'|lia].
Qed.
Theorem datediff_refuted :
  mysql_datediff (mkmoment 2024 3 1 None) (mkmoment 2024 2 28 None) = Ok (VInt (-2)) /\
  days_after 2 (2024, 2, 28) (2024, 3, 1).
Proof. split; vm_compute; reflexivity. Qed.

(** TIMESTAMPDIFF counts the whole units of fixed length in the elapsed time, rounded toward zero, when that is a whole number of
    seconds. *)
Theorem timestampdiff_fixed_units : forall x y u v n s, is_moment x -> is_moment y -> us x = Some u -> us y = Some v ->
  elapsed (day_of x) u (day_of y) v (s * 1000000) ->
  mysql_timestampdiff (unit_name n) x y = Ok (VInt (Z.quot s (unit_seconds n))).
Proof.
  intros x y u v n s Hx Hy Ex Ey El. apply elapsed_stamp in El; try assumption. unfold mysql_timestampdiff.
  assert (assoc (unit_name n) TIMEDELTA_UNITS = Some (unit_seconds n)) as -> by (destruct n; reflexivity).
  apply diff_quot; try assumption; [split; congruence|lia|destruct n; cbn; lia].
Qed.
(** MONTH, QUARTER and YEAR are counted as 30, 90 and 365 days: 31 January to 1 March 2023 are 0 months. *)
Theorem timestampdiff_calendar_units : forall x y u v s, is_moment x -> is_moment y -> us x = Some u -> us y = Some v ->
  elapsed (day_of x) u (day_of y) v (s * 1000000) ->
  mysql_timestampdiff (t "MONTH") x y = Ok (VInt (Z.quot s (30 * 86400))) /\
  mysql_timestampdiff (t "QUARTER") x y = Ok (VInt (Z.quot s (90 * 86400))) /\
  mysql_timestampdiff (t "YEAR") x y = Ok (VInt (Z.quot s (365 * 86400))).
Proof.
  intros x y u v s Hx Hy Ex Ey El. apply elapsed_stamp in El; try assumption. unfold mysql_timestampdiff.
  repeat split; (apply diff_quot; try assumption; [split; congruence|lia|lia]).
Qed.
Theorem timestampdiff_month_refuted :
  mysql_timestampdiff (t "MONTH") (mkmoment 2023 2 1 (Some 0)) (mkmoment 2023 3 1 (Some 0)) = Ok (VInt 0) /\
  months_later 1 (2023, 2, 1) = (2023, 3, 1).
Proof. split; vm_compute; reflexivity. Qed.
(** With microseconds, a difference just short of a whole number of seconds can round up. *)
Theorem timestampdiff_rounding_refuted :
  mysql_timestampdiff (t "SECOND") (mkmoment 1 1 1 (Some 0)) (mkmoment 9999 12 31 (Some 86399999999)) = Ok (VInt 315537897600) /\
  Z.quot (stamp (mkmoment 9999 12 31 (Some 86399999999)) - stamp (mkmoment 1 1 1 (Some 0))) 1000000 = 315537897599.
Proof. split; vm_compute; reflexivity. Qed.

(** ** Parts of a date *)
(** WEEKDAY: 2024-01-01 was a Monday (0), and each next day is the next weekday, for every day of the calendar. *)
Theorem weekday_cycle : mysql_weekday (mkmoment 2024 1 1 None) = 0 /\
  forall x y, is_moment x -> is_moment y -> day_of y = next_day (day_of x) -> mysql_weekday y = (mysql_weekday x + 1) mod 7.
Proof.
  split; [vm_compute; reflexivity|]. intros x y (Ix & _) _ E. unfold mysql_weekday.
  change (ymd2ord (yr y) (mo y) (dy y)) with (ord (day_of y)). change (ymd2ord (yr x) (mo x) (dy x)) with (ord (day_of x)).
  rewrite E, ord_next by exact Ix. rewrite Zplus_mod_idemp_l. f_equal. lia.
Qed.
(** DAYOFWEEK numbers the days from Monday = 1; SQL's numbers them from Sunday = 1 (weekday 6): wrong on every day. *)
Definition sunday_first (weekday : Z) : Z := (weekday + 1) mod 7 + 1.
Theorem dayofweek_refuted : forall x, mysql_dayofweek x = mysql_weekday x + 1 /\ mysql_dayofweek x <> sunday_first (mysql_weekday x).
Proof.
  intro x. split; [reflexivity|]. unfold mysql_dayofweek, sunday_first.
  assert (0 <= mysql_weekday x < 7) by (apply Z.mod_pos_bound; lia). Z.to_euclidean_division_equations; lia.
Qed.
(** DAYOFYEAR counts from 1 January. *)
Theorem dayofyear_counts : forall x n, is_moment x -> days_after n (yr x, 1, 1) (day_of x) -> mysql_dayofyear x = Z.of_nat n + 1.
Proof.
  intros x n (Ix & _) H. assert (is_day (yr x, 1, 1)) as I1 by (cbn; destruct Ix; lia).
  apply days_after_ord in H; try assumption. unfold day_of in H. cbn [ord] in H. unfold ymd2ord in H. unfold mysql_dayofyear.
  change (days_before_month (yr x) 1) with 0 in H. lia.
Qed.
Example dayofyear_example : days_after 59 (2023, 1, 1) (2023, 3, 1) /\ mysql_dayofyear (mkmoment 2023 3 1 None) = 60.
Proof. split; vm_compute; reflexivity. Qed.

(** SEC_TO_TIME and TIME_TO_SEC: inverse of each other within a day; SEC_TO_TIME wraps at 24 hours. *)
Lemma sec_to_time_value : forall s, 0 <= s < 86400 -> mysql_sec_to_time s = Ok (s / 3600, s / 60 mod 60, s mod 60).
Proof.
  intros s H. unfold mysql_sec_to_time, add_td. cbn [us yr mo dy]. change (ymd2ord 2000 1 1) with 730120.
  rewrite Z.add_0_l. rewrite Z.div_small, Z.mod_small by (unfold DAY_US; lia). change (730120 + 0) with 730120.
  change (of_days 730120 (Some (s * 1000000))) with (Ok (mkmoment 2000 1 1 (Some (s * 1000000)))). cbn [bind us].
  rewrite Z.div_mul by discriminate. reflexivity.
Qed.
Theorem sec_time_roundtrip : forall s, 0 <= s < 86400 ->
  exists h m c, mysql_sec_to_time s = Ok (h, m, c) /\ 0 <= m < 60 /\ 0 <= c < 60 /\ mysql_time_to_sec h m c = Ok (VInt s).
Proof.
  intros s H. exists (s / 3600), (s / 60 mod 60), (s mod 60). split; [apply sec_to_time_value, H|].
  pose proof (Z.mod_pos_bound (s / 60) 60). pose proof (Z.mod_pos_bound s 60). split; [lia|]. split; [lia|].
  assert (E : s / 3600 * 3600 + s / 60 mod 60 * 60 + s mod 60 = s) by (Z.to_euclidean_division_equations; lia).
  unfold mysql_time_to_sec. rewrite E. unfold total_seconds. cbn [us].
  assert (stamp (mkmoment 2000 1 1 (Some (s * 1000000))) - stamp (mkmoment 2000 1 1 (Some 0)) = s * 1000000) as ->.
  { unfold stamp. cbn [us yr mo dy]. lia. }
  destruct (div_exact s 1000000) as (f & -> & I); [lia|change (2 ^ 53) with 9007199254740992; lia|]. cbn [bind py_int].
  rewrite (float_is_int f s I). reflexivity.
Qed.
Theorem sec_to_time_refuted : mysql_sec_to_time 90000 = Ok (1, 0, 0).   (* SQL: 25:00:00 *)
Proof. vm_compute. reflexivity. Qed.

(** ** Intervals written as text: ADDTIME(x, 'h:m:s') *)
Lemma digit_iff : forall c, digit c = true <-> Utils_Spec.digit c.
Proof. intro c. unfold digit, Utils_Spec.digit. rewrite andb_true_iff, !N.leb_le. tauto. Qed.
Lemma run_app : forall ds rest, Forall Utils_Spec.digit ds -> (match rest with c :: _ => digit c = false | [] => True end) ->
  run (ds ++ rest) = (ds, rest).
Proof.
  induction ds as [|c ds IH]; intros rest H R.
  - destruct rest as [|c r]; [reflexivity|]. cbn. rewrite R. reflexivity.
  - inversion H as [|? ? H1 H2]; subst. apply digit_iff in H1. cbn [app run]. rewrite H1, (IH rest H2 R). reflexivity.
Qed.
Lemma closed_app : forall sep ds c r, Utils_Spec.digits ds -> digit c = false ->
  closed_group sep (ds ++ c :: r) = if sep c then Some (ds ++ [c], r) else None.
Proof.
  intros sep ds c r [N D] C. unfold closed_group. rewrite (run_app ds (c :: r) D C). destruct ds; [contradiction|reflexivity].
Qed.
Lemma year_none : forall s, Forall (fun c => c <> 45%N) s -> year_group s = None.
Proof.
  intros s H. destruct s as [|a [|b [|c [|d [|e r]]]]]; try reflexivity. cbn [year_group].
  repeat (match goal with H : Forall _ (_ :: _) |- _ => inversion H; clear H; subst end).
  destruct (N.eqb_spec e 45); [contradiction|]. rewrite andb_false_r. reflexivity.
Qed.
Lemma first_some_app : forall A B (f : A -> option B) l1 l2,
  first_some f (l1 ++ l2) = match first_some f l1 with Some y => Some y | None => first_some f l2 end.
Proof. induction l1 as [|x l1 IH]; intro l2; [reflexivity|]. cbn. destruct (f x); [reflexivity|apply IH]. Qed.
Lemma prefixes_last : forall B (f : text * text -> option B) n s y,
  (forall j, (1 <= j < S n)%nat -> f (firstn j s, skipn j s) = None) -> f (firstn (S n) s, skipn (S n) s) = Some y ->
  first_some f (prefixes (S n) s) = Some y.
Proof.
  intros B f n s y H1 H2. cbn [prefixes]. rewrite first_some_app.
  assert (E : first_some f (prefixes n s) = None).
  { clear H2. induction n as [|n IH]; [reflexivity|]. cbn [prefixes]. rewrite first_some_app, IH by (intros; apply H1; lia).
    cbn [first_some]. rewrite H1 by lia. reflexivity. }
  rewrite E. cbn [first_some]. rewrite H2. reflexivity.
Qed.
Definition hms_text (h m s : text) : text := h ++ t ":" ++ m ++ t ":" ++ s.
Lemma match_hms : forall h m s, Utils_Spec.digits h -> Utils_Spec.digits m -> Utils_Spec.digits s ->
  interval_match (hms_text h m s) = Some [None; None; None; Some (h ++ [58%N]); Some m; Some (58%N :: s); None].
Proof.
  intros h m s Hh Hm Hs. unfold hms_text. change (t ":") with [58%N]. cbn [app].
  assert (NotMinus : forall l, Forall Utils_Spec.digit l -> Forall (fun c => c <> 45%N) l).
  { intros l H. eapply Forall_impl; [|exact H]. intros c Hc E. unfold Utils_Spec.digit in Hc. lia. }
  unfold interval_match.
  rewrite year_none.
  2: { apply Forall_app; split; [apply NotMinus, Hh|]. constructor; [discriminate|]. apply Forall_app; split; [apply NotMinus, Hm|].
       constructor; [discriminate|]. apply NotMinus, Hs. }
  unfold opt_group at 1. cbn [one first_some].
  rewrite closed_app by (assumption || reflexivity). change (58 =? 45)%N with false. cbn iota. unfold opt_group at 1. cbn [one first_some].
  rewrite closed_app by (assumption || reflexivity). change (is_space 58) with false. cbn iota. unfold opt_group at 1. cbn [one first_some].
  rewrite closed_app by (assumption || reflexivity). change (58 =? 58)%N with true. cbn iota. unfold opt_group at 1. cbn [one first_some fst snd].
  set (w := m ++ 58%N :: s). unfold opt_group at 1.
  assert (L : lazy_digits w = prefixes (length m) w).
  { unfold lazy_digits, w. rewrite run_app; [reflexivity|apply Hm|reflexivity]. }
  rewrite L. destruct Hm as [Nm Dm]. destruct (length m) as [|n] eqn:Ln; [destruct m; [contradiction|discriminate]|].
  set (f := fun p : text * text => _).
  assert (P : first_some f (prefixes (S n) w) = Some [None; None; None; Some (h ++ [58%N]); Some m; Some (58%N :: s); None]).
  { apply prefixes_last.
    - intros j Hj. unfold f. cbn [fst snd].
      assert (exists c r, skipn j w = c :: r /\ Utils_Spec.digit c /\ r <> []) as (c & r & E & Dc & Nr).
      { unfold w. rewrite skipn_app. replace (j - length m)%nat with 0%nat by lia. cbn [skipn].
        destruct (skipn j m) as [|c r] eqn:K; [assert (length (skipn j m) = 0)%nat as K' by (rewrite K; reflexivity); rewrite skipn_length in K'; lia|].
        exists c, (r ++ 58%N :: s). split; [reflexivity|]. split.
        - assert (In c m) as I by (rewrite <- (firstn_skipn j m); apply in_or_app; right; rewrite K; left; reflexivity).
          rewrite Forall_forall in Dm. apply Dm, I.
        - destruct r; discriminate. }
      rewrite E. unfold Utils_Spec.digit in Dc. unfold opt_group. cbn [marked_digits].
      destruct (N.eqb_spec c 58); [lia|]. cbn [first_some]. destruct (N.eqb_spec c 46); [lia|]. cbn [first_some].
      destruct r as [|c2 r]; [contradiction|]. reflexivity.
    - unfold f. cbn [fst snd].
      assert (firstn (S n) w = m) as -> by (unfold w; rewrite <- Ln, firstn_app, Nat.sub_diag, firstn_O, app_nil_r, firstn_all; reflexivity).
      assert (skipn (S n) w = 58%N :: s) as -> by (unfold w; rewrite <- Ln, skipn_app, Nat.sub_diag, skipn_all; reflexivity).
      unfold opt_group at 1. cbn [marked_digits]. change (58 =? 58)%N with true. cbn iota.
      destruct Hs as [Ns Ds].
      assert (lazy_digits s = prefixes (length s) s) as ->.
      { unfold lazy_digits. rewrite <- (app_nil_r s) at 1. rewrite run_app; [reflexivity|exact Ds|exact I]. }
      destruct (length s) as [|q] eqn:Lq; [destruct s; [contradiction|discriminate]|]. cbn [prefixes].
      rewrite rev_app_distr. cbn [rev app map first_some fst snd].
      assert (firstn (S q) s = s) as -> by (rewrite <- Lq; apply firstn_all).
      assert (skipn (S q) s = []) as -> by (rewrite <- Lq; apply skipn_all).
      reflexivity. }
  rewrite P. reflexivity.
Qed.

Lemma add_td_range : forall x u a, is_moment x -> us x = Some u ->
  (if (DAY_US <=? stamp x + a) && (stamp x + a <? (MAXORDINAL + 1) * DAY_US)
   then exists y, add_td x a = Ok y else add_td x a = Err OverflowError).
Proof.
  intros x u a M E. pose proof (add_td_spec x u a) as S.
  destruct (add_td x a) as [y|e] eqn:A.
  - destruct (proj1 (S y M E) eq_refl) as (My & _ & Sy). pose proof (stamp_bounds y My) as B. rewrite Sy in B.
    assert ((DAY_US <=? stamp x + a) && (stamp x + a <? (MAXORDINAL + 1) * DAY_US) = true) as -> by (rewrite andb_true_iff, Z.leb_le, Z.ltb_lt; exact B).
    exists y. reflexivity.
  - assert (e = OverflowError) as ->.
    { unfold add_td, of_days in A. rewrite E in A. destruct (_ && _) in A; [destruct (ord2ymd _) as [[? ?] ?]; discriminate A|congruence]. }
    destruct ((DAY_US <=? stamp x + a) && (stamp x + a <? (MAXORDINAL + 1) * DAY_US)) eqn:B; [|reflexivity]. exfalso.
    rewrite andb_true_iff, Z.leb_le, Z.ltb_lt in B.
    set (T := stamp x + a) in *. pose proof (Z.div_mod T DAY_US ltac:(unfold DAY_US; lia)) as D.
    pose proof (Z.mod_pos_bound T DAY_US ltac:(unfold DAY_US; lia)) as MB.
    assert (N : 1 <= T / DAY_US <= MAXORDINAL) by (unfold DAY_US, MAXORDINAL in *; lia).
    destruct (ord_of (T / DAY_US) ltac:(lia)) as [I O]. destruct (ord2ymd (T / DAY_US)) as [[y m] d].
    specialize (S (mkmoment y m d (Some (T mod DAY_US))) M E).
    assert (X : Err OverflowError = Ok (mkmoment y m d (Some (T mod DAY_US)))); [|discriminate X].
    apply S. split; [|split; [discriminate|]].
    + split; [exact I|]. split; [apply (ord_year y m d I); lia|exact MB].
    + unfold stamp at 1. cbn [us yr mo dy]. change (ymd2ord y m d) with (ord (y, m, d)). rewrite O. fold T. lia.
Qed.
Lemma add_td_compose : forall x u a b, is_moment x -> us x = Some u -> 0 <= a * b ->
  (do y <- add_td x a; add_td y b) = add_td x (a + b).
Proof.
  intros x u a b M E P. pose proof (add_td_range x u a M E) as R1. pose proof (add_td_range x u (a + b) M E) as R2.
  pose proof (stamp_bounds x M) as Bx.
  destruct ((DAY_US <=? stamp x + a) && (stamp x + a <? (MAXORDINAL + 1) * DAY_US)) eqn:C1.
  - destruct R1 as [y A]. rewrite A. cbn [bind]. apply (add_td_spec x u a y M E) in A. destruct A as (My & Uy & Sy).
    destruct (us y) as [v|] eqn:V; [|contradiction]. pose proof (add_td_range y v b My V) as R3. rewrite Sy, <- Z.add_assoc in R3.
    destruct ((DAY_US <=? stamp x + (a + b)) && (stamp x + (a + b) <? (MAXORDINAL + 1) * DAY_US)).
    + destruct R2 as [z Z], R3 as [z' Z']. rewrite Z, Z'. pose proof (proj1 (add_td_spec x u (a + b) z M E) Z) as (Mz & Uz & Sz).
      pose proof (proj1 (add_td_spec y v b z' My V) Z') as (Mz' & Uz' & Sz').
      assert (add_td x (a + b) = Ok z') as W by (apply (add_td_spec x u (a + b) z' M E); split; [exact Mz'|]; split; [exact Uz'|lia]). congruence.
    + rewrite R2, R3. reflexivity.
  - rewrite R1. cbn [bind]. apply not_true_iff_false in C1. rewrite andb_true_iff, Z.leb_le, Z.ltb_lt in C1.
    assert ((DAY_US <=? stamp x + (a + b)) && (stamp x + (a + b) <? (MAXORDINAL + 1) * DAY_US) = false) as X.
    { apply not_true_iff_false. rewrite andb_true_iff, Z.leb_le, Z.ltb_lt. intro Y. apply C1. nia. }
    rewrite X in R2. rewrite R2. reflexivity.
Qed.
Lemma calculate_unit : forall s x u n v, us x = Some u ->
  calculate s x (unit_name n) v = do z <- add_td x ((if s then -1 else 1) * (unit_seconds n * v * 1000000)); Ok (Some z).
Proof.
  intros s x u n v E. unfold calculate.
  assert (text_eqb (unit_name n) (t "YEAR") = false) as -> by (destruct n; reflexivity).
  assert (text_eqb (unit_name n) (t "QUARTER") || text_eqb (unit_name n) (t "MONTH") = false) as -> by (destruct n; reflexivity).
  assert (A : assoc (unit_name n) TIMEDELTA_UNITS = Some (unit_seconds n)) by (destruct n; reflexivity). rewrite A. cbv zeta.
  destruct s.
  - rewrite (sub_td_add x u _ E). replace (-1 * (unit_seconds n * v * 1000000)) with (- (unit_seconds n * v * 1000000)) by ring. reflexivity.
  - rewrite Z.mul_1_l. reflexivity.
Qed.
Lemma digits_plain : forall ds, Forall Utils_Spec.digit ds -> drop_marks ds = ds /\ filter (fun c => negb (is_space c)) ds = ds.
Proof.
  induction ds as [|c ds IH]; intro H; [split; reflexivity|]. inversion H as [|? ? H1 H2]; subst. destruct (IH H2) as [E1 E2].
  unfold Utils_Spec.digit in H1. split; cbn [drop_marks filter].
  - unfold drop_marks in E1. destruct (N.eqb_spec c 45), (N.eqb_spec c 46), (N.eqb_spec c 58); try lia. cbn [orb negb]. f_equal. exact E1.
  - unfold is_space. destruct (N.eqb_spec c 32), (N.leb_spec 9 c), (N.leb_spec c 13); try lia; cbn [orb andb negb]; f_equal; exact E2.
Qed.
Lemma decval_agree : forall ds, digits_value ds = Utils_Spec.decval ds.
Proof.
  intro ds. unfold digits_value, Utils_Spec.decval. generalize 0 as a. induction ds as [|c ds IH]; intro a; [reflexivity|].
  cbn [fold_left]. rewrite IH. f_equal. lia.
Qed.
Lemma group_digits : forall ds, Forall Utils_Spec.digit ds -> group_value ds = Utils_Spec.decval ds.
Proof.
  intros ds H. unfold group_value. destruct (digits_plain ds H) as [-> ->]. apply decval_agree.
Qed.
Lemma group_colon : forall ds, Forall Utils_Spec.digit ds ->
  group_value (ds ++ [58%N]) = Utils_Spec.decval ds /\ group_value (58%N :: ds) = Utils_Spec.decval ds.
Proof.
  intros ds H. rewrite <- (group_digits ds H). unfold group_value. split.
  - assert (drop_marks (ds ++ [58%N]) = drop_marks ds) as -> by (unfold drop_marks; rewrite filter_app; cbn; apply app_nil_r). reflexivity.
  - assert (drop_marks (58%N :: ds) = drop_marks ds) as -> by reflexivity. reflexivity.
Qed.
Lemma decval_nonneg : forall ds, Forall Utils_Spec.digit ds -> 0 <= Utils_Spec.decval ds.
Proof.
  intros ds H. unfold Utils_Spec.decval. assert (G : forall a, 0 <= a -> 0 <= fold_left (fun a c => 10 * a + (Z.of_N c - 48)) ds a); [|apply G; lia].
  induction H as [|c ds Hc H IH]; intros a Ha; [exact Ha|]. cbn [fold_left]. apply IH. unfold Utils_Spec.digit in Hc. lia.
Qed.

(** ADDTIME(x, 'h:m:s') and SUBTIME(x, 'h:m:s') move a datetime by 3600 h + 60 m + s seconds, for any numbers of digits. *)
Theorem text_interval_hms : forall sub x u h m s, is_moment x -> us x = Some u ->
  Utils_Spec.digits h -> Utils_Spec.digits m -> Utils_Spec.digits s ->
  date_shift sub x (Spelled (hms_text h m s)) =
  date_shift sub x (Named (t "SECOND") (Utils_Spec.decval h * 3600 + Utils_Spec.decval m * 60 + Utils_Spec.decval s)).
Proof.
  intros sub x u h m s M E Hh Hm Hs. unfold date_shift. unfold text_interval. rewrite (match_hms h m s Hh Hm Hs).
  destruct Hh as [_ Dh], Hm as [_ Dm], Hs as [_ Ds].
  change (combine (shift_groups [None; None; None; Some (h ++ [58%N]); Some m; Some (58%N :: s); None]) UNITS)
    with [(None, t "YEAR"); (None, t "MONTH"); (None, t "DAY"); (Some (h ++ [58%N]), unit_name Hour); (Some m, unit_name Minute); (Some (58%N :: s), unit_name Second); (@None text, t "MICROSECOND")].
  cbn [apply_groups]. rewrite (proj1 (group_colon h Dh)), (group_digits m Dm), (proj2 (group_colon s Ds)).
  pose proof (decval_nonneg h Dh) as Ph. pose proof (decval_nonneg m Dm) as Pm. pose proof (decval_nonneg s Ds) as Ps.
  set (vh := Utils_Spec.decval h) in *. set (vm := Utils_Spec.decval m) in *. set (vs := Utils_Spec.decval s) in *.
  change (map upper_ascii (t "SECOND")) with (unit_name Second). rewrite !(calculate_unit sub x u _ _ E). cbn [unit_seconds].
  set (g := if sub then -1 else 1). assert (Hg : g * g = 1) by (unfold g; destruct sub; reflexivity).
  replace (g * (1 * (vh * 3600 + vm * 60 + vs) * 1000000)) with
    (g * (3600 * vh * 1000000) + (g * (60 * vm * 1000000) + g * (1 * vs * 1000000))) by ring.
  rewrite <- (add_td_compose x u _ _ M E).
  2: { replace (g * (3600 * vh * 1000000) * (g * (60 * vm * 1000000) + g * (1 * vs * 1000000)))
         with (g * g * ((3600 * vh * 1000000) * (60 * vm * 1000000 + 1 * vs * 1000000))) by ring. rewrite Hg. nia. }
  pose proof (add_td_spec x u (g * (3600 * vh * 1000000))) as S1.
  destruct (add_td x (g * (3600 * vh * 1000000))) as [y|]; [|reflexivity]. cbn [bind].
  destruct (proj1 (S1 y M E) eq_refl) as (My & Uy & _). destruct (us y) as [w|] eqn:W; [|contradiction].
  rewrite <- (add_td_compose y w _ _ My W).
  2: { replace (g * (60 * vm * 1000000) * (g * (1 * vs * 1000000))) with (g * g * ((60 * vm * 1000000) * (1 * vs * 1000000))) by ring. rewrite Hg. nia. }
  rewrite (calculate_unit sub y w _ _ W). cbn [unit_seconds]. fold g.
  pose proof (add_td_spec y w (g * (60 * vm * 1000000))) as S2.
  destruct (add_td y (g * (60 * vm * 1000000))) as [z|]; [|reflexivity]. cbn [bind].
  destruct (proj1 (S2 z My W) eq_refl) as (Mz & Uz & _). destruct (us z) as [w'|] eqn:W'; [|contradiction].
  rewrite (calculate_unit sub z w' _ _ W'). cbn [unit_seconds]. fold g.
  destruct (add_td z (g * (1 * vs * 1000000))); reflexivity.
Qed.
Example text_interval_example :
  date_add (mkmoment 2024 12 31 (Some 82800000000)) (Spelled (t "1:59:60")) = Some (mkmoment 2025 1 1 (Some 3600000000)) /\
  hms_text (t "1") (t "59") (t "60") = t "1:59:60".
Proof. split; vm_compute; reflexivity. Qed.
(** 'h:m' is read as minutes and seconds (SQL: hours and minutes); a fraction '.5' as five seconds. *)
Theorem text_interval_short_refuted :
  date_add (mkmoment 2024 1 1 (Some 0)) (Spelled (t "10:20")) = Some (mkmoment 2024 1 1 (Some 620000000)) /\
  date_add (mkmoment 2024 1 1 (Some 0)) (Spelled (t "00:00:00.5")) = Some (mkmoment 2024 1 1 (Some 5000000)).
Proof. split; vm_compute; reflexivity. Qed.

Print Assumptions datediff_reversed. Print Assumptions datediff_refuted. Print Assumptions timestampdiff_fixed_units.
Print Assumptions timestampdiff_calendar_units. Print Assumptions timestampdiff_month_refuted. Print Assumptions timestampdiff_rounding_refuted.
Print Assumptions weekday_cycle. Print Assumptions dayofweek_refuted. Print Assumptions dayofyear_counts.
Print Assumptions sec_time_roundtrip. Print Assumptions sec_to_time_refuted.
Print Assumptions text_interval_hms. Print Assumptions text_interval_short_refuted.

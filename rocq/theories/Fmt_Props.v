(** Parts of dates, weeks of the year, DATE_FORMAT. *)
From Coq Require Import Lia.
From Verif Require Import Base PyVal Utils_Model Utils_Spec Utils_Proofs Dec_Proofs Str_Model Str_Proofs Interp_Props Date_Spec Date_Model Date_Proofs Fmt_Spec Fmt_Model Fmt_Proofs.
Open Scope Z_scope.

Section Fmt.
Variable other : N -> moment -> text.

Lemma strftime_text : forall s r x, ~ In 37%N s -> strftime other (s ++ r) x = s ++ strftime other r x.
Proof.
  induction s as [|c s IH]; intros r x H; [reflexivity|]. cbn [app strftime]. destruct (N.eqb_spec c 37) as [->|_]; [exfalso; apply H; left; reflexivity|].
  f_equal. apply IH. intro A. apply H. right. exact A.
Qed.
Lemma strftime_directive : forall c r x, strftime other (37%N :: c :: r) x = Fmt_Model.directive other c x ++ strftime other r x.
Proof. reflexivity. Qed.
(** The letter a directive is passed on as. *)
Definition passed (x : Fmt_Spec.directive) : N := match x with WeekIso => 86%N | _ => letter x end.
Definition passed_piece (p : fpiece) : text := match p with FText s => s | FDir x => [37%N; passed x] end.
Lemma prefix_two : forall a b c r, prefixb [a; b] (c :: r) = true -> c = a /\ exists r', r = b :: r'.
Proof. intros a b c r H. apply (proj1 (prefixb_spec _ _)) in H. destruct H as [q E]. cbn [app] in E. injection E as -> E. split; [reflexivity|]. exists q. exact E. Qed.
Lemma skip_one : forall c r, (c = 37%N -> exists d r', r = d :: r' /\ d <> 118%N) \/ (c = 37%N /\ r = []) -> py_replace (c :: r) (t "%v") (t "%V") = c :: py_replace r (t "%v") (t "%V").
Proof.
  intros c r H. apply replace_skip; [discriminate|]. destruct (prefixb (t "%v") (c :: r)) eqn:E; [|reflexivity]. exfalso.
  apply (prefix_two 37%N 118%N) in E. destruct E as [-> [r' ->]]. destruct H as [H|[_ H]]; [|discriminate]. destruct (H eq_refl) as (d & q & A & B). congruence.
Qed.
Lemma replace_text : forall s r, ~ In 37%N s -> py_replace (s ++ r) (t "%v") (t "%V") = s ++ py_replace r (t "%v") (t "%V").
Proof.
  induction s as [|c s IH]; intros r H; [reflexivity|]. cbn [app]. rewrite skip_one.
  - f_equal. apply IH. intro A. apply H. right. exact A.
  - left. intros ->. exfalso. apply H. left. reflexivity.
Qed.
Lemma directive_eq : forall x y : Fmt_Spec.directive, {x = y} + {x <> y}. Proof. decide equality. Qed.
Lemma letter_plain : forall x, x <> WeekIso -> letter x <> 118%N. Proof. intros [] H E; try discriminate E. contradiction. Qed.
Lemma letter_percent : forall x, letter x = 37%N -> x = Percent. Proof. intros [] E; try discriminate E; reflexivity. Qed.
Lemma replace_format : forall ps, format_ok ps -> py_replace (format_text ps) (t "%v") (t "%V") = concat (map passed_piece ps).
Proof.
  unfold format_text. induction ps as [|p ps IH]; intro H; [reflexivity|]. cbn [format_ok] in H. destruct H as [Hp Hr]. cbn [map concat]. rewrite <- (IH Hr). destruct p as [s|x]; cbn [piece_text passed_piece].
  - apply replace_text, Hp.
  - destruct (directive_eq x WeekIso) as [->|N].
    + change ([37%N; letter WeekIso] ++ concat (map piece_text ps)) with (t "%v" ++ concat (map piece_text ps)). rewrite replace_hit by discriminate. reflexivity.
    + assert (passed x = letter x) as -> by (destruct x; try reflexivity; contradiction). cbn [app]. rewrite skip_one by (left; intros _; exists (letter x); eexists; split; [reflexivity|apply letter_plain, N]).
      f_equal. apply skip_one. destruct (N.eq_dec (letter x) 37) as [E|E]; [|left; intro; contradiction].
      apply letter_percent in E. subst x. destruct ps as [|q ps]; [right; split; reflexivity|]. left. intros _. destruct q as [s|y]; cbn [map concat piece_text app].
      * cbn [format_ok] in Hr. destruct s as [|c s]; [destruct Hr as [[Hr _] _]; contradiction|]. exists c. eexists. split; [reflexivity|exact Hp].
      * exists 37%N. eexists. split; [reflexivity|discriminate].
Qed.
Lemma month_name_eq : forall x, Fmt_Model.month_name x = Fmt_Spec.month_name (mo x). Proof. reflexivity. Qed.
Lemma day_name_eq : forall x, day_name x = weekday_name (wd (day_of x)).
Proof.
  intro x. unfold day_name, weekday_name. rewrite tm_wday_eq. pose proof (wd_bounds (day_of x)) as B. remember (wd (day_of x)) as w eqn:E. clear E.
  assert (w = 0 \/ w = 1 \/ w = 2 \/ w = 3 \/ w = 4 \/ w = 5 \/ w = 6) as H by lia. destruct H as [H|[H|[H|[H|[H|[H|H]]]]]]; subst w; reflexivity.
Qed.
Lemma week_sunday_eq : forall k w, 0 <= w < 7 -> (k - (w + 1) mod 7 + 7) / 7 = week_at 6 k w.
Proof. intros k w W. unfold week_at. Z.to_euclidean_division_equations; lia. Qed.
Lemma week_monday_eq : forall k w, 0 <= w < 7 -> (k - ((w + 1) mod 7 - 1 + 7) mod 7 + 7) / 7 = week_at 0 k w.
Proof. intros k w W. unfold week_at. Z.to_euclidean_division_equations; lia. Qed.
Lemma week_at_bounds : forall first k w, 0 <= first < 7 -> 0 <= w < 7 -> 0 <= k < 366 -> 0 <= week_at first k w <= 53.
Proof. intros first k w F W K. unfold week_at. Z.to_euclidean_division_equations; lia. Qed.
Lemma yday_366 : forall d, is_day d -> 0 <= yday d < 366.
Proof. intros d I. pose proof (yday_bounds d I). unfold yleap in *. destruct (leap_year (year_of d)); lia. Qed.

Lemma directive_says : forall x p, is_moment x -> 1000 <= yr x -> says (day_of x) (micros x) p (Fmt_Model.directive other (passed p) x).
Proof.
  intros x p I Y. pose proof (clock_of x I) as [C Hh]. pose proof C as (_ & Hm & Hs & Hf). destruct I as (Id & Hy & Hu). unfold says. change (day_of x) with (yr x, mo x, dy x) at 1. cbv iota beta zeta.
  assert (Hmo : 1 <= mo x <= 12 /\ 1 <= dy x <= 31).
  { destruct Id as (_ & H1 & H2). pose proof (length_bounds (yr x) (mo x) H1). unfold day_of in *. lia. }
  pose proof (wd_bounds (day_of x)) as Wb. pose proof (yday_366 _ Id) as Yb.
  exists (tm_hour x), (tm_min x), (tm_sec x), (micros x mod 1000000). split; [exact C|].
  destruct p; cbn [passed letter]; match goal with |- context [Fmt_Model.directive other ?c x] => let e := eval cbv beta iota delta [Fmt_Model.directive N.eqb Pos.eqb] in (Fmt_Model.directive other c x) in change (Fmt_Model.directive other c x) with e end.
  - apply year_shows. lia.
  - apply pad_shows; [lia|]. pose proof (Z.mod_pos_bound (yr x) 100). cbn; lia.
  - apply pad_shows; [lia|cbn; lia].
  - rewrite month_name_eq. reflexivity.
  - apply pad_shows; [lia|cbn; lia].
  - exists (Z.to_nat (yday (day_of x))). split.
    + change (yr x, mo x, dy x) with (day_of x). apply days_after_ord; [exact (new_year_day _ Id)|exact Id|]. change (yr x) with (year_of (day_of x)). unfold yday in *. lia.
    + rewrite tm_yday_eq, Z2Nat.id by lia. apply pad_shows; [lia|cbn; lia].
  - apply pad_shows; [lia|cbn; lia].
  - match goal with |- shows 2 ?a (pad 2 ?b) => assert (a = b) as -> end; [|apply pad_shows; [lia|cbv zeta; destruct (Z.ltb_spec 12 (tm_hour x)); destruct (Z.eqb_spec (tm_hour x) 0); destruct (Z.eqb_spec (tm_hour x - 12) 0); change (10 ^ Z.of_nat 2) with 100; lia]].
    cbv zeta. destruct (Z.ltb_spec 12 (tm_hour x)).
    + assert (tm_hour x mod 12 = tm_hour x - 12) as -> by (Z.to_euclidean_division_equations; lia). reflexivity.
    + destruct (Z.eqb_spec (tm_hour x) 0) as [->|]; [reflexivity|]. destruct (Z.eqb_spec (tm_hour x mod 12) 0); Z.to_euclidean_division_equations; lia.
  - apply pad_shows; [lia|cbn; lia].
  - apply pad_shows; [lia|cbn; lia].
  - destruct (Z.ltb_spec (tm_hour x) 12), (Z.ltb_spec 11 (tm_hour x)); reflexivity || lia.
  - exists (pad 2 (tm_hour x)), (pad 2 (tm_min x)), (pad 2 (tm_sec x)). split; [reflexivity|]. repeat split; apply pad_shows; cbn; lia.
  - exists (week_at 6 (yday (day_of x)) (wd (day_of x))). split; [apply week_number_iff; [lia|exact Id|reflexivity]|]. rewrite tm_yday_eq, tm_wday_eq, week_sunday_eq by exact Wb.
    pose proof (week_at_bounds 6 _ _ ltac:(lia) Wb Yb). apply pad_shows; [lia|cbn; lia].
  - destruct (iso_days_spec x (conj Id (conj Hy Hu))) as (n & In & En & Bn). exists n. split; [exact In|]. rewrite <- En. apply pad_shows; [lia|cbn; lia].
  - exists (wd (day_of x)). split; [apply weekday_ord; [exact Id|reflexivity]|]. rewrite tm_wday_eq. apply pad_shows; [lia|]. pose proof (Z.mod_pos_bound (wd (day_of x) + 1) 7). cbn; lia.
  - exists (wd (day_of x)). split; [apply weekday_ord; [exact Id|reflexivity]|]. rewrite day_name_eq. reflexivity.
  - reflexivity.
Qed.

(** ** DATE_FORMAT and TIME_FORMAT *)
Theorem date_format_correct : forall x ps, is_moment x -> 1000 <= yr x -> format_ok ps ->
  exists vs, Forall2 (piece_says (day_of x) (micros x)) ps vs /\ mysql_date_format other x (format_text ps) = concat vs /\ mysql_time_format other x (format_text ps) = concat vs.
Proof.
  intros x ps I Y F. unfold mysql_date_format, mysql_time_format. rewrite (replace_format ps F).
  enough (exists vs, Forall2 (piece_says (day_of x) (micros x)) ps vs /\ strftime other (concat (map passed_piece ps)) x = concat vs) as (vs & A & B) by (exists vs; auto).
  induction ps as [|p ps IH]; [exists []; split; [constructor|reflexivity]|]. cbn [format_ok] in F. destruct F as [Fp F]. destruct (IH F) as (vs & A & B). cbn [map concat]. destruct p as [s|p]; cbn [passed_piece].
  - exists (s :: vs). split; [constructor; [reflexivity|exact A]|]. rewrite strftime_text by apply Fp. rewrite B. reflexivity.
  - exists (Fmt_Model.directive other (passed p) x :: vs). split; [constructor; [apply directive_says; assumption|exact A]|]. cbn [app]. rewrite strftime_directive, B. reflexivity.
Qed.
(** Directives that mean something else to MySQL: percent M is the minute and not the month, percent W a week number and not the weekday; the letter v
    behind a double percent sign is changed. *)
Theorem date_format_month_name_refuted : forall x, is_moment x -> exists h m s f, clock (micros x) h m s f /\ shows 2 m (mysql_date_format other x (t "%M")) /\
  mysql_date_format other x (t "%M") <> Fmt_Spec.month_name (mo x).
Proof.
  intros x I. destruct (clock_of x I) as [C _]. pose proof C as (_ & Hm & _). exists (tm_hour x), (tm_min x), (tm_sec x), (micros x mod 1000000). split; [exact C|].
  assert (mysql_date_format other x (t "%M") = pad 2 (tm_min x)) as -> by (unfold mysql_date_format; change (py_replace (t "%M") (t "%v") (t "%V")) with (t "%M"); change (strftime other (t "%M") x) with (pad 2 (tm_min x) ++ []); apply app_nil_r).
  assert (S : shows 2 (tm_min x) (pad 2 (tm_min x))) by (apply pad_shows; cbn; lia). split; [exact S|]. intro E. destruct S as (L & _ & _). rewrite E in L.
  destruct I as ((_ & Hmo & _) & _). unfold Fmt_Spec.month_name in L.
  assert (mo x = 1 \/ mo x = 2 \/ mo x = 3 \/ mo x = 4 \/ mo x = 5 \/ mo x = 6 \/ mo x = 7 \/ mo x = 8 \/ mo x = 9 \/ mo x = 10 \/ mo x = 11 \/ mo x = 12) as H by lia.
  destruct H as [H|[H|[H|[H|[H|[H|[H|[H|[H|[H|[H|H]]]]]]]]]]]; rewrite H in L; discriminate L.
Qed.
Theorem date_format_weekday_refuted : forall x w, is_moment x -> weekday (day_of x) w -> exists n, week_number 0 (day_of x) n /\ shows 2 n (mysql_date_format other x (t "%W")) /\
  mysql_date_format other x (t "%W") <> weekday_name w.
Proof.
  intros x w I Hw. pose proof I as (Id & _). pose proof (wd_bounds (day_of x)) as Wb. pose proof (yday_366 _ Id) as Yb. pose proof (week_at_bounds 0 _ _ ltac:(lia) Wb Yb) as B.
  exists (week_at 0 (yday (day_of x)) (wd (day_of x))). split; [apply week_number_iff; [lia|exact Id|reflexivity]|].
  assert (mysql_date_format other x (t "%W") = pad 2 (week_at 0 (yday (day_of x)) (wd (day_of x)))) as ->.
  { unfold mysql_date_format. change (py_replace (t "%W") (t "%v") (t "%V")) with (t "%W"). change (strftime other (t "%W") x) with (pad 2 ((tm_yday x - (tm_wday x - 1 + 7) mod 7 + 7) / 7) ++ []). rewrite app_nil_r.
    rewrite tm_yday_eq, tm_wday_eq, week_monday_eq by exact Wb. reflexivity. }
  assert (S : shows 2 (week_at 0 (yday (day_of x)) (wd (day_of x))) (pad 2 (week_at 0 (yday (day_of x)) (wd (day_of x))))) by (apply pad_shows; [lia|cbn; lia]).
  split; [exact S|]. intro E. destruct S as (L & _ & _). rewrite E in L. apply (weekday_ord _ _ Id) in Hw. change ((ord (day_of x) - 1) mod 7) with (wd (day_of x)) in Hw. subst w. remember (wd (day_of x)) as w eqn:Ew. clear - L Wb.
  assert (w = 0 \/ w = 1 \/ w = 2 \/ w = 3 \/ w = 4 \/ w = 5 \/ w = 6) as H by lia. destruct H as [H|[H|[H|[H|[H|[H|H]]]]]]; subst w; discriminate L.
Qed.
Theorem date_format_double_percent_refuted : forall x, mysql_date_format other x (t "%%v") = t "%V".
Proof. reflexivity. Qed.

(** ** Names *)
Theorem dayname_correct : forall x w, is_day (day_of x) -> weekday (day_of x) w -> mysql_dayname other x = weekday_name w.
Proof. intros x w I H. apply (weekday_ord _ _ I) in H. subst w. unfold mysql_dayname. change (strftime other (t "%A") x) with (day_name x ++ []). rewrite app_nil_r. apply day_name_eq. Qed.
Theorem monthname_abbreviated : forall x, mysql_monthname other x = firstn 3 (Fmt_Spec.month_name (mo x)).
Proof. intro x. unfold mysql_monthname. change (strftime other (t "%b") x) with (firstn 3 (Fmt_Model.month_name x) ++ []). rewrite app_nil_r. reflexivity. Qed.
Theorem monthname_refuted : forall x, is_day (day_of x) -> (mysql_monthname other x = Fmt_Spec.month_name (mo x) <-> mo x = 5).
Proof.
  intros x (_ & Hmo & _). rewrite monthname_abbreviated. unfold Fmt_Spec.month_name.
  assert (mo x = 1 \/ mo x = 2 \/ mo x = 3 \/ mo x = 4 \/ mo x = 5 \/ mo x = 6 \/ mo x = 7 \/ mo x = 8 \/ mo x = 9 \/ mo x = 10 \/ mo x = 11 \/ mo x = 12) as H by lia.
  destruct H as [H|[H|[H|[H|[H|[H|[H|[H|[H|[H|[H|H]]]]]]]]]]]; rewrite H; split; intro E; try discriminate E; reflexivity.
Qed.

(** ** Parts *)
Theorem date_time_parts : forall x, is_moment x ->
  add_td (mysql_datetime (mysql_date x)) (mysql_time x) = Ok (mysql_datetime x) /\ mysql_date (mysql_datetime x) = mysql_date x /\ mysql_time (mysql_datetime x) = mysql_time x /\
  mysql_date x = mkmoment (mysql_year x) (mysql_month x) (mysql_dayofmonth x) None.
Proof.
  intros x I. assert (I0 : is_moment (mysql_datetime (mysql_date x))) by (destruct I as (A & B & _); split; [exact A|split; [exact B|cbn; unfold day_us; lia]]).
  split; [|destruct x as [a b c [u|]]; repeat split].
  apply (add_td_spec _ 0 _ _ I0 eq_refl). destruct x as [a b c [u|]]; cbn [mysql_datetime mysql_date mysql_time us yr mo dy].
  - split; [exact I|]. split; [discriminate|]. rewrite (stamp_eq (mkmoment a b c (Some u)) u eq_refl), (stamp_eq (mkmoment a b c (Some 0)) 0 eq_refl). unfold day_of. cbn [yr mo dy]. lia.
  - split; [|split; [discriminate|lia]]. destruct I as (A & B & _). split; [exact A|split; [exact B|cbn; unfold day_us; lia]].
Qed.

(** ** Weeks *)
Lemma int_pad : forall n z, (0 < n)%nat -> 0 <= z < 10 ^ Z.of_nat n -> int_of_text (pad n z) = Ok z.
Proof. intros n z Hn Hz. destruct (pad_shows n z Hn Hz) as (L & D & V). rewrite int_of_digits; [rewrite V; reflexivity|destruct (pad n z); [cbn in L; lia|discriminate]|exact D]. Qed.
Definition week_text (x : moment) (one : bool) : text := strftime other (if one then t "%W" else t "%U") x.
Lemma week_text_eq : forall x one, week_text x one = pad 2 (week_at (if one then 0 else 6) (yday (day_of x)) (wd (day_of x))).
Proof.
  intros x one. pose proof (wd_bounds (day_of x)) as W. destruct one; unfold week_text.
  - change (strftime other (t "%W") x) with (pad 2 ((tm_yday x - (tm_wday x - 1 + 7) mod 7 + 7) / 7) ++ []). rewrite app_nil_r, tm_yday_eq, tm_wday_eq, week_monday_eq by exact W. reflexivity.
  - change (strftime other (t "%U") x) with (pad 2 ((tm_yday x - tm_wday x + 7) / 7) ++ []). rewrite app_nil_r, tm_yday_eq, tm_wday_eq, week_sunday_eq by exact W. reflexivity.
Qed.
Lemma first_ok : forall one : bool, 0 <= (if one then 0 else 6) < 7. Proof. intros []; lia. Qed.
(** WEEK counts weeks from the year's first Sunday, WEEK(d, 1) from the first Monday. *)
Theorem week_counts : forall x (one : bool) n, is_day (day_of x) -> week_number (if one then 0 else 6) (day_of x) n -> mysql_week other x one = Ok n.
Proof.
  intros x one n I H. apply (proj1 (week_number_iff _ _ _ (first_ok one) I)) in H. unfold mysql_week. change (strftime other _ x) with (week_text x one). rewrite week_text_eq, <- H. apply int_pad; [lia|]. subst n.
  pose proof (week_at_bounds (if one then 0 else 6) _ _ (first_ok one) (wd_bounds (day_of x)) (yday_366 _ I)). cbn; lia.
Qed.
Theorem week_total : forall x first, 0 <= first < 7 -> is_day (day_of x) -> exists n, week_number first (day_of x) n /\ 0 <= n <= 53.
Proof.
  intros x first F I. exists (week_at first (yday (day_of x)) (wd (day_of x))). split; [apply week_number_iff; auto|]. apply week_at_bounds; auto using wd_bounds, yday_366.
Qed.
(** In the years that begin on Tuesday, Wednesday or Thursday WEEK(d, 1) is one less than MySQL's. *)
Theorem week_mode1_refuted : forall x n w, is_day (day_of x) -> week_mode1 (day_of x) n -> weekday (yr x, 1, 1) w ->
  mysql_week other x true = Ok (if (1 <=? w) && (w <=? 3) then n - 1 else n).
Proof.
  intros x n w I (m & w' & Hm & Hw' & ->) Hw. change (year_of (day_of x)) with (yr x) in Hw'. pose proof (weekday_is_day _ _ Hw) as I1.
  apply (weekday_ord _ _ I1) in Hw. apply (weekday_ord _ _ I1) in Hw'. subst w'. rewrite <- Hw. rewrite (week_counts x true m I Hm). destruct ((1 <=? w) && (w <=? 3)); f_equal; lia.
Qed.
Lemma yearweek_text : forall x (one : bool), strftime other (if one then t "%Y%W" else t "%Y%U") x = str_of_Z (yr x) ++ week_text x one.
Proof. intros x []; reflexivity. Qed.
Lemma decval_app2 : forall s a, shows 2 a s -> forall p, decval (p ++ s) = decval p * 100 + a.
Proof.
  intros s a (L & _ & V) p. destruct s as [|c [|d [|e s]]]; try discriminate L. change (p ++ [c; d]) with (p ++ [c] ++ [d]). rewrite app_assoc, !decval_snoc.
  change [c; d] with (([] ++ [c]) ++ [d]) in V. rewrite !decval_snoc in V. change (decval []) with 0 in V. lia.
Qed.
Theorem yearweek_exact : forall x (one : bool) n, is_moment x -> week_number (if one then 0 else 6) (day_of x) n -> mysql_yearweek other x one = Ok (yr x * 100 + n).
Proof.
  intros x one n (I & Hy & _) H. pose proof I as (Y1 & _). apply (proj1 (week_number_iff _ _ _ (first_ok one) I)) in H.
  pose proof (week_at_bounds (if one then 0 else 6) _ _ (first_ok one) (wd_bounds (day_of x)) (yday_366 _ I)) as B. rewrite <- H in B.
  unfold mysql_yearweek. rewrite yearweek_text, week_text_eq, <- H.
  assert (str_of_Z (yr x) = str_of_nonneg (yr x)) as -> by (unfold str_of_Z; destruct (Z.ltb_spec (yr x) 0); [lia|reflexivity]).
  destruct (str_of_nonneg_spec (yr x) ltac:(lia)) as [[Nn D] V]. pose proof (pad_shows 2 n ltac:(lia) ltac:(cbn; lia)) as S.
  rewrite int_of_digits; [|destruct (str_of_nonneg (yr x)); [contradiction|discriminate]|apply Forall_app; split; [exact D|apply S]].
  rewrite (decval_app2 _ n S), V. reflexivity.
Qed.
Lemma year_week_case : forall d v n, is_day d -> week_number 6 d n -> year_week d v -> if n =? 0 then v < year_of d * 100 else v = year_of d * 100 + n.
Proof.
  intros d v n I Hn (k & s & m & K & A & Ws & Wm & ->). pose proof (weekday_is_day _ _ Ws) as Is. apply (days_after_ord _ _ _ Is I) in A.
  apply (weekday_ord _ _ Is) in Ws. assert (F6 : 0 <= 6 < 7) by lia. apply (proj1 (week_number_iff _ _ _ F6 I)) in Hn. apply (proj1 (week_number_iff _ _ _ F6 Is)) in Wm.
  change ((ord s - 1) mod 7) with (wd s) in Ws. rewrite <- Ws in Wm.
  assert (Wd : wd d = (6 + Z.of_nat k) mod 7) by (unfold wd in *; Z.to_euclidean_division_equations; lia).
  pose proof (yday_366 d I) as Bd. pose proof (yday_366 s Is) as Bs.
  destruct (Z_lt_ge_dec (yday d) (Z.of_nat k)) as [L|L].
  - assert (Hn0 : n = 0) by (rewrite Hn, Wd; unfold week_at; Z.to_euclidean_division_equations; lia). rewrite Hn0. cbn.
    assert (Ys : year_of s < year_of d).
    { destruct (Z_lt_ge_dec (year_of s) (year_of d)) as [|G]; [assumption|exfalso]. unfold yday in L, Bs. rewrite new_year_ord in L, Bs. pose proof (dby_mono (year_of d) (year_of s) ltac:(lia)). lia. }
    assert (m <= 53) by (rewrite Wm; apply week_at_bounds; lia). lia.
  - assert (Ys : year_of s = year_of d) by (apply year_between; [exact Is|]; pose proof (new_year_next (year_of d)); pose proof (yday_bounds d I); unfold yday in *; lia).
    assert (yday s = yday d - Z.of_nat k) as E by (unfold yday; rewrite Ys; lia).
    assert (n = m) by (rewrite Hn, Wm, Wd, E; unfold week_at; Z.to_euclidean_division_equations; lia).
    assert (1 <= n) by (rewrite H, Wm, E; unfold week_at; Z.to_euclidean_division_equations; lia).
    destruct (Z.eqb_spec n 0); [lia|]. rewrite Ys, H. reflexivity.
Qed.
(** YEARWEEK is MySQL's in every week but the one before the year's first Sunday, where it is never. *)
Theorem yearweek_within_year : forall x v n, is_moment x -> week_number 6 (day_of x) n -> year_week (day_of x) v -> n <> 0 -> mysql_yearweek other x false = Ok v.
Proof.
  intros x v n I Hn Hv Nz. pose proof (year_week_case _ _ _ (proj1 I) Hn Hv) as C. destruct (Z.eqb_spec n 0); [contradiction|]. rewrite (yearweek_exact x false n I Hn), C. reflexivity.
Qed.
Theorem yearweek_refuted : forall x v, is_moment x -> week_number 6 (day_of x) 0 -> year_week (day_of x) v -> mysql_yearweek other x false <> Ok v.
Proof.
  intros x v I Hn Hv. pose proof (year_week_case _ _ _ (proj1 I) Hn Hv) as C. cbn [Z.eqb] in C. rewrite (yearweek_exact x false 0 I Hn). change (year_of (day_of x)) with (yr x) in C.
  intro E. assert (yr x * 100 + 0 = v) by congruence. lia.
Qed.
Theorem year_week_total : forall x, is_day (day_of x) -> 7 <= ord (day_of x) -> exists v, year_week (day_of x) v.
Proof.
  intros x I O. set (d := day_of x) in *. pose proof (wd_bounds d) as W.
  assert (OW : ord d - 1 - wd d = 7 * ((ord d - 1) / 7)) by (unfold wd; Z.to_euclidean_division_equations; lia).
  set (k := (wd d + 1) mod 7). assert (0 <= k <= 6 /\ 7 <= ord d - k) as [Hk Ho] by (unfold k; Z.to_euclidean_division_equations; lia).
  destruct (ord_of (ord d - k) ltac:(lia)) as [Is Os]. set (s := ord2ymd (ord d - k)) in *.
  exists (year_of s * 100 + week_at 6 (yday s) (wd s)), (Z.to_nat k), s, (week_at 6 (yday s) (wd s)). split; [lia|]. split; [apply (days_after_ord _ _ _ Is I); lia|].
  split; [apply weekday_ord; [exact Is|]; rewrite Os; unfold k; Z.to_euclidean_division_equations; lia|]. split; [apply week_number_iff; [lia|exact Is|reflexivity]|reflexivity].
Qed.
End Fmt.

(** ** UNIX_TIMESTAMP *)
(** It undoes FROM_UNIXTIME up to the host's offset from UTC, whatever the session's time zone. *)
Theorem unix_timestamp_offset : forall zone local s x, mysql_from_unixtime zone s = Ok x -> mysql_unix_timestamp zone local x = s - local.
Proof.
  intros zone local s x H. assert (Ie : is_moment epoch) by (repeat split; cbn; unfold day_us; lia || discriminate). apply (add_td_spec epoch 0 _ _ Ie eq_refl) in H. destruct H as (I & U & E).
  destruct (us x) as [u|] eqn:Eu; [|contradiction]. rewrite (stamp_eq x u Eu), (stamp_eq epoch 0 eq_refl) in E. unfold mysql_unix_timestamp, seconds_of, micros. rewrite Eu.
  change (ymd2ord (yr x) (mo x) (dy x)) with (ord (day_of x)). change (ymd2ord 1970 1 1) with (ord (day_of epoch)). unfold DAY_US in E. destruct I as (_ & _ & Bu). rewrite Eu in Bu.
  set (a := ord (day_of x)) in *. set (b := ord (day_of epoch)) in *. Z.to_euclidean_division_equations; lia.
Qed.
Theorem unix_timestamp_round_trip : forall zone s x, mysql_from_unixtime zone s = Ok x -> mysql_unix_timestamp zone 0 x = s.
Proof. intros zone s x H. rewrite (unix_timestamp_offset zone 0 s x H). lia. Qed.
Theorem unix_timestamp_refuted : forall zone local s x, local <> 0 -> mysql_from_unixtime zone s = Ok x -> mysql_unix_timestamp zone local x <> s.
Proof. intros zone local s x L H. rewrite (unix_timestamp_offset zone local s x H). lia. Qed.

(** ** Cases that meet the hypotheses *)
Definition tuesday : moment := mkmoment 2024 3 5 (Some 51029000042).
Example tuesday_is_moment : is_moment tuesday /\ 1000 <= yr tuesday. Proof. repeat split; cbn; unfold day_us; lia || discriminate. Qed.
Definition a_format : list fpiece := [FDir Year4; FText (t "-"); FDir Month; FText (t " v"); FDir Percent; FDir WeekIso; FText (t " "); FDir Hour12; FDir AmPm; FText (t "."); FDir Micro].
Example format_met : format_ok a_format /\ mysql_date_format (fun _ _ => []) tuesday (format_text a_format) = t "2024-03 v%10 02PM.000042".
Proof. split; [cbn; repeat split; try discriminate; intro H; repeat destruct H as [H|H]; discriminate || contradiction|reflexivity]. Qed.
Example week_met : weekday (day_of tuesday) 1 /\ week_number 6 (day_of tuesday) 9 /\ mysql_week (fun _ _ => []) tuesday false = Ok 9.
Proof.
  destruct tuesday_is_moment as [(I & _) _]. split; [apply (weekday_ord _ _ I); reflexivity|]. split; [apply (week_number_iff 6 _ _ ltac:(lia) I); reflexivity|reflexivity].
Qed.
(** 1 January 2025, a Wednesday, is in week 1 in mode 1. *)
Example mode1_met : week_mode1 (2025, 1, 1) 1 /\ weekday (2025, 1, 1) 2 /\ mysql_week (fun _ _ => []) (mkmoment 2025 1 1 None) true = Ok 0.
Proof.
  assert (I : is_day (2025, 1, 1)) by (cbn; lia). assert (W : weekday (2025, 1, 1) 2) by (apply (weekday_ord _ _ I); reflexivity). split; [|split; [exact W|reflexivity]].
  exists 0, 2. split; [apply (week_number_iff 0 _ _ ltac:(lia) I); reflexivity|]. split; [exact W|reflexivity].
Qed.
(** 1 January 2022, a Saturday, is in the last week of 2021. *)
Example yearweek_met : week_number 6 (2022, 1, 1) 0 /\ year_week (2022, 1, 1) 202152 /\ mysql_yearweek (fun _ _ => []) (mkmoment 2022 1 1 None) false = Ok 202200.
Proof.
  assert (I : is_day (2022, 1, 1)) by (cbn; lia). assert (Is : is_day (2021, 12, 26)) by (cbn; lia). split; [apply (week_number_iff 6 _ _ ltac:(lia) I); reflexivity|]. split; [|reflexivity].
  exists 6%nat, (2021, 12, 26), 52. split; [lia|]. split; [reflexivity|]. split; [apply (weekday_ord _ _ Is); reflexivity|]. split; [apply (week_number_iff 6 _ _ ltac:(lia) Is); reflexivity|reflexivity].
Qed.
Example unix_met : mysql_from_unixtime 28800 1700000000 = Ok (mkmoment 2023 11 15 (Some 22400000000)) /\ mysql_unix_timestamp 28800 28800 (mkmoment 2023 11 15 (Some 22400000000)) = 1699971200.
Proof. split; reflexivity. Qed.
Print Assumptions date_format_correct.
Print Assumptions date_format_month_name_refuted.
Print Assumptions date_format_weekday_refuted.
Print Assumptions dayname_correct.
Print Assumptions monthname_refuted.
Print Assumptions date_time_parts.
Print Assumptions week_counts.
Print Assumptions week_total.
Print Assumptions week_mode1_refuted.
Print Assumptions yearweek_within_year.
Print Assumptions yearweek_refuted.
Print Assumptions unix_timestamp_round_trip.
Print Assumptions unix_timestamp_refuted.

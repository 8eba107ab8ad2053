From Verif Require Import Base PyVal Utils_Model Agg_Model Date_Model Date_Spec.
Open Scope Z_scope.

(** ** The calendar *)
Lemma leap_agree : forall y, py_is_leap y = leap_year y.
Proof.
  intro y. unfold py_is_leap, leap_year.
  assert (H1 : y mod 400 = 0 -> y mod 100 = 0) by (intro; Z.to_euclidean_division_equations; lia).
  assert (H2 : y mod 100 = 0 -> y mod 4 = 0) by (intro; Z.to_euclidean_division_equations; lia).
  destruct (Z.eqb_spec (y mod 400) 0), (Z.eqb_spec (y mod 100) 0), (Z.eqb_spec (y mod 4) 0); try reflexivity; lia.
Qed.
Definition months : list Z := [1; 2; 3; 4; 5; 6; 7; 8; 9; 10; 11; 12].
Lemma month_in : forall m, 1 <= m <= 12 -> In m months.
Proof. intros. unfold months. cbn. lia. Qed.
Ltac each_month m H :=
  let I := fresh in pose proof (month_in m H) as I; unfold months in I; cbn [In] in I;
  repeat (destruct I as [I|I]; [subst m|]); [..|destruct I].
Ltac nthz_values :=
  repeat match goal with |- context [nthz ?l ?k] => let v := eval vm_compute in (nthz l k) in change (nthz l k) with v end.
Lemma dim_agree : forall y m, 1 <= m <= 12 -> days_in_month y m = month_length y m.
Proof.
  intros y m H. unfold days_in_month. rewrite leap_agree. each_month m H; reflexivity.
Qed.
Lemma length_bounds : forall y m, 1 <= m <= 12 -> 28 <= month_length y m <= 31.
Proof. intros y m H. each_month m H; cbn; try lia. destruct (leap_year y); lia. Qed.
Definition yleap (y : Z) : Z := if leap_year y then 1 else 0.
Lemma dbm_step : forall y m, 1 <= m <= 11 -> days_before_month y (m + 1) = days_before_month y m + month_length y m.
Proof.
  intros y m H. unfold days_before_month. rewrite leap_agree. assert (1 <= m <= 12) as H' by lia.
  each_month m H'; cbn; destruct (leap_year y); reflexivity || lia.
Qed.
Lemma dbm_12 : forall y, days_before_month y 12 + 31 = 365 + yleap y.
Proof. intro y. unfold days_before_month, yleap. rewrite leap_agree. destruct (leap_year y); reflexivity. Qed.
Lemma dby_step : forall y, days_before_year (y + 1) = days_before_year y + 365 + yleap y.
Proof.
  intro y. unfold days_before_year, yleap, leap_year. replace (y + 1 - 1) with y by ring.
  assert (G : forall k, 0 < k -> y / k = (y - 1) / k + (if y mod k =? 0 then 1 else 0)).
  { intros k Hk. destruct (Z.eqb_spec (y mod k) 0) as [E|E].
    - pose proof (Z.div_mod y k ltac:(lia)).
      pose proof (Z.div_unique (y - 1) k (y / k - 1) (k - 1) ltac:(lia) ltac:(lia)). lia.
    - pose proof (Z.div_mod y k ltac:(lia)). pose proof (Z.mod_pos_bound y k ltac:(lia)).
      pose proof (Z.div_unique (y - 1) k (y / k) (y mod k - 1) ltac:(lia) ltac:(lia)). lia. }
  rewrite (G 4), (G 100), (G 400) by lia.
  assert (H1 : y mod 400 = 0 -> y mod 100 = 0) by (intro; Z.to_euclidean_division_equations; lia).
  assert (H2 : y mod 100 = 0 -> y mod 4 = 0) by (intro; Z.to_euclidean_division_equations; lia).
  destruct (Z.eqb_spec (y mod 400) 0), (Z.eqb_spec (y mod 100) 0), (Z.eqb_spec (y mod 4) 0); lia.
Qed.
Definition ord (d : day) : Z := let '(y, m, d) := d in ymd2ord y m d.
Lemma ord_next : forall d, is_day d -> ord (next_day d) = ord d + 1.
Proof.
  intros [[y m] d] (Hy & Hm & Hd). cbn [next_day].
  destruct (Z.ltb_spec d (month_length y m)); [|destruct (Z.ltb_spec m 12)]; cbn [ord]; unfold ymd2ord.
  - lia.
  - rewrite dbm_step by lia. lia.
  - assert (m = 12) as -> by lia. rewrite dby_step. pose proof (dbm_12 y). cbn [month_length] in *.
    change (days_before_month (y + 1) 1) with 0. lia.
Qed.
Lemma next_is_day : forall d, is_day d -> is_day (next_day d).
Proof.
  intros [[y m] d] (Hy & Hm & Hd). cbn [next_day]. destruct (Z.ltb_spec d (month_length y m)); [repeat split; lia|].
  destruct (Z.ltb_spec m 12).
  - pose proof (length_bounds y (m + 1)). repeat split; lia.
  - pose proof (length_bounds (y + 1) 1). repeat split; lia.
Qed.

(** Within a year. *)
Lemma dbm_bounds : forall y m d, 1 <= m <= 12 -> 1 <= d <= month_length y m ->
  0 <= days_before_month y m + d - 1 < 365 + yleap y.
Proof.
  intros y m d Hm Hd. unfold days_before_month, yleap. rewrite leap_agree.
  each_month m Hm; nthz_values; cbn [month_length Z.ltb Z.compare Pos.compare Pos.compare_cont andb] in *; destruct (leap_year y); lia.
Qed.
Lemma md_inverse : forall y m d, 1 <= m <= 12 -> 1 <= d <= month_length y m ->
  ord2md (leap_year y) (days_before_month y m + d - 1) = (m, d).
Proof.
  intros y m d Hm Hd.
  assert (G : forall l : bool, forallb (fun m => forallb (fun d =>
      negb (d <=? (match m with 2 => if l then 29 else 28 | 4 | 6 | 9 | 11 => 30 | _ => 31 end))
      || (let '(m', d') := ord2md l (nthz DAYS_BEFORE_MONTH m + (if (2 <? m) && l then 1 else 0) + d - 1) in (m' =? m) && (d' =? d)))
      (map Z.of_nat (seq 1 31))) months = true) by (intros []; vm_compute; reflexivity).
  specialize (G (leap_year y)). rewrite forallb_forall in G. specialize (G m (month_in m Hm)). rewrite forallb_forall in G.
  assert (I : In d (map Z.of_nat (seq 1 31))).
  { apply in_map_iff. exists (Z.to_nat d). pose proof (length_bounds y m Hm). split; [lia|]. apply in_seq. lia. }
  specialize (G d I). unfold days_before_month. rewrite leap_agree.
  change (match m with 2 => if leap_year y then 29 else 28 | 4 | 6 | 9 | 11 => 30 | _ => 31 end) with (month_length y m) in G.
  destruct (Z.leb_spec d (month_length y m)); [|lia]. cbn [negb orb] in G.
  destruct (ord2md _ _) as [m' d']. apply andb_prop in G. destruct G as [G1 G2]. apply Z.eqb_eq in G1, G2. congruence.
Qed.

Lemma div_is : forall n k q r, 0 <= r < k -> n = k * q + r -> n / k = q /\ n mod k = r.
Proof. intros n k q r H E. split; symmetry; [eapply Z.div_unique|eapply Z.mod_unique]; eauto. Qed.

(** n - 1 = 146097 a + 36524 b + 1461 c + 365 e + r: the digits that CPython computes. *)
Lemma ord2ymd_digits : forall a b c e r y, 0 <= b < 4 -> 0 <= c < 25 -> 0 <= e < 4 -> y = 400 * a + 100 * b + 4 * c + e + 1 ->
  0 <= r < 365 + yleap y ->
  ord2ymd (146097 * a + 36524 * b + 1461 * c + 365 * e + r + 1) =
    let '(m, d) := ord2md (leap_year y) r in (y, m, d).
Proof.
  intros a b c e r y Hb Hc He Hy Hr. unfold ord2ymd.
  assert (L : leap_year y = (e =? 3) && (negb (c =? 24) || (b =? 3))).
  { unfold leap_year. subst y.
    assert ((400 * a + 100 * b + 4 * c + e + 1) mod 4 = (e + 1) mod 4) as -> 
      by (replace (400 * a + 100 * b + 4 * c + e + 1) with (e + 1 + (100 * a + 25 * b + c) * 4) by ring; apply Z.mod_add; lia).
    assert ((400 * a + 100 * b + 4 * c + e + 1) mod 100 = (4 * c + e + 1) mod 100) as -> 
      by (replace (400 * a + 100 * b + 4 * c + e + 1) with (4 * c + e + 1 + (4 * a + b) * 100) by ring; apply Z.mod_add; lia).
    assert ((400 * a + 100 * b + 4 * c + e + 1) mod 400 = (100 * b + 4 * c + e + 1) mod 400) as -> 
      by (replace (400 * a + 100 * b + 4 * c + e + 1) with (100 * b + 4 * c + e + 1 + a * 400) by ring; apply Z.mod_add; lia).
    destruct (Z.eqb_spec e 3), (Z.eqb_spec c 24), (Z.eqb_spec b 3); subst; cbn [negb andb orb];
      repeat match goal with |- context [?x mod ?k] => 
        let q := fresh "q" in let r' := fresh "r" in
        pose proof (Z.div_mod x k ltac:(lia)); pose proof (Z.mod_pos_bound x k ltac:(lia)); set (r' := x mod k) in *; set (q := x / k) in * end;
      repeat match goal with |- context [?x =? 0] => destruct (Z.eqb_spec x 0) end; try reflexivity; exfalso; lia. }
  assert (yl : yleap y = if (e =? 3) && (negb (c =? 24) || (b =? 3)) then 1 else 0) by (unfold yleap; rewrite L; reflexivity).
  set (n := 146097 * a + 36524 * b + 1461 * c + 365 * e + r + 1).
  destruct (div_is (n - 1) 146097 a (36524 * b + 1461 * c + 365 * e + r)) as [-> ->].
  { rewrite yl in Hr. destruct (Z.eqb_spec e 3), (Z.eqb_spec c 24), (Z.eqb_spec b 3); cbn [negb andb orb] in Hr; lia. } { unfold n. ring. }
  (* the last day of a leap year *)
  destruct (Z.eq_dec r 365) as [R|R].
  - assert (YL : yleap y = 1) by (unfold yleap in *; destruct (leap_year y); lia).
    assert (LY : leap_year y = true) by (unfold yleap in *; destruct (leap_year y); [reflexivity|lia]).
    rewrite LY in L. symmetry in L. apply andb_prop in L. destruct L as [L1 L2]. apply Z.eqb_eq in L1. subst e.
    rewrite LY. subst r. change (ord2md true 365) with (12, 31).
    destruct (Z.eqb_spec c 24) as [C|C].
    + cbn [negb orb] in L2. apply Z.eqb_eq in L2. subst b c.
      destruct (div_is (36524 * 3 + 1461 * 24 + 365 * 3 + 365) 36524 4 0) as [-> ->]; [lia..|]. cbn. f_equal. f_equal. lia.
    + destruct (div_is (36524 * b + 1461 * c + 365 * 3 + 365) 36524 b (1461 * c + 1460)) as [-> ->]; [lia..|].
      destruct (div_is (1461 * c + 1460) 1461 c 1460) as [-> ->]; [lia..|].
      change (1460 / 365) with 4. change (1460 mod 365) with 0. cbn [Z.eqb orb Pos.eqb]. f_equal. f_equal. lia.
  - assert (Hr' : 0 <= r < 365) by (rewrite yl in Hr; destruct (_ && _); lia).
    destruct (div_is (36524 * b + 1461 * c + 365 * e + r) 36524 b (1461 * c + 365 * e + r)) as [-> ->]; [lia..|].
    destruct (div_is (1461 * c + 365 * e + r) 1461 c (365 * e + r)) as [-> ->]; [lia..|].
    destruct (div_is (365 * e + r) 365 e r) as [-> ->]; [lia..|].
    destruct (Z.eqb_spec e 4); [lia|]. destruct (Z.eqb_spec b 4); [lia|]. cbn [orb]. rewrite <- L.
    destruct (ord2md (leap_year y) r) as [m d]. f_equal. f_equal. lia.
Qed.
Lemma ord_inverse : forall d, is_day d -> ord2ymd (ord d) = d.
Proof.
  intros [[y m] d] (Hy & Hm & Hd). cbn [ord]. unfold ymd2ord.
  set (a := (y - 1) / 400). set (b := (y - 1) mod 400 / 100). set (c := (y - 1) mod 100 / 4). set (e := (y - 1) mod 4).
  assert (E : y - 1 = 400 * a + 100 * b + 4 * c + e /\ 0 <= b < 4 /\ 0 <= c < 25 /\ 0 <= e < 4).
  { unfold a, b, c, e. Z.to_euclidean_division_equations; lia. }
  destruct E as (E & Hb & Hc & He).
  assert (F : days_before_year y = 146097 * a + 36524 * b + 1461 * c + 365 * e).
  { unfold days_before_year.
    destruct (div_is (y - 1) 4 (100 * a + 25 * b + c) e) as [-> _]; [lia..|].
    destruct (div_is (y - 1) 100 (4 * a + b) (4 * c + e)) as [-> _]; [lia..|].
    destruct (div_is (y - 1) 400 a (100 * b + 4 * c + e)) as [-> _]; [lia..|]. lia. }
  rewrite F. replace (146097 * a + 36524 * b + 1461 * c + 365 * e + days_before_month y m + d)
    with (146097 * a + 36524 * b + 1461 * c + 365 * e + (days_before_month y m + d - 1) + 1) by ring.
  rewrite (ord2ymd_digits a b c e _ y Hb Hc He ltac:(lia) (dbm_bounds y m d Hm Hd)).
  rewrite md_inverse by assumption. reflexivity.
Qed.
Lemma iter_is_day : forall n d, is_day d -> is_day (Nat.iter n next_day d) /\ ord (Nat.iter n next_day d) = ord d + Z.of_nat n.
Proof.
  induction n as [|n IH]; intros d H; [cbn [Nat.iter nat_rect]; split; [exact H|lia]|].
  destruct (IH d H) as [I O]. cbn [Nat.iter nat_rect] in *. split; [apply next_is_day, I|]. rewrite ord_next by exact I.
  change (nat_rect (fun _ : nat => day) d (fun _ : nat => next_day) n) with (Nat.iter n next_day d). lia.
Qed.
(** Every ordinal is that of a day. *)
Lemma ord_of : forall n, 1 <= n -> is_day (ord2ymd n) /\ ord (ord2ymd n) = n.
Proof.
  intros n H. assert (D1 : is_day (1, 1, 1)) by (cbn; lia).
  destruct (iter_is_day (Z.to_nat (n - 1)) (1, 1, 1) D1) as [I O].
  change (ord (1, 1, 1)) with 1 in O. replace (1 + Z.of_nat (Z.to_nat (n - 1))) with n in O by lia.
  rewrite <- O at 1. rewrite ord_inverse by exact I. split; [exact I|]. rewrite <- O at 1. rewrite ord_inverse by exact I. exact O.
Qed.
Lemma ord_inj : forall a b, is_day a -> is_day b -> ord a = ord b -> a = b.
Proof. intros a b Ha Hb E. rewrite <- (ord_inverse a Ha), <- (ord_inverse b Hb), E. reflexivity. Qed.
Lemma days_after_ord : forall n a b, is_day a -> is_day b -> (days_after n a b <-> ord b = ord a + Z.of_nat n).
Proof.
  intros n a b Ha Hb. unfold days_after. destruct (iter_is_day n a Ha) as [I O]. split; intro H.
  - rewrite <- H. exact O.
  - apply ord_inj; [exact I|exact Hb|lia].
Qed.
Lemma dby_mono : forall y z, y <= z -> days_before_year y <= days_before_year z.
Proof.
  intros y z H. replace z with (y + Z.of_nat (Z.to_nat (z - y))) by lia. induction (Z.to_nat (z - y)) as [|n IH].
  - rewrite Z.add_0_r. lia.
  - replace (y + Z.of_nat (S n)) with (y + Z.of_nat n + 1) by lia. rewrite dby_step. unfold yleap. destruct (leap_year _); lia.
Qed.
Lemma ord_pos : forall d, is_day d -> 1 <= ord d.
Proof.
  intros [[y m] d] (Hy & Hm & Hd). cbn [ord]. unfold ymd2ord. pose proof (dby_mono 1 y Hy) as M. change (days_before_year 1) with 0 in M.
  pose proof (dbm_bounds y m d Hm Hd). lia.
Qed.
Lemma ord_year : forall y m d, is_day (y, m, d) -> (ord (y, m, d) <= MAXORDINAL <-> y <= 9999).
Proof.
  intros y m d (Hy & Hm & Hd). cbn [ord]. unfold ymd2ord, MAXORDINAL. pose proof (dbm_bounds y m d Hm Hd) as B. split; intro H.
  - destruct (Z_le_gt_dec y 9999); [assumption|]. pose proof (dby_mono 10000 y ltac:(lia)) as M.
    change (days_before_year 10000) with 3652059 in M. lia.
  - pose proof (dby_mono (y + 1) 10000 ltac:(lia)) as M. rewrite dby_step in M. change (days_before_year 10000) with 3652059 in M. lia.
Qed.

(** ** Moments *)
Definition day_of (x : moment) : day := (yr x, mo x, dy x).
Definition is_moment (x : moment) : Prop :=
  is_day (day_of x) /\ yr x <= 9999 /\ match us x with Some u => 0 <= u < day_us | None => True end.
Lemma of_days_spec : forall n u y, of_days n u = Ok y <-> is_day (day_of y) /\ yr y <= 9999 /\ ord (day_of y) = n /\ us y = u.
Proof.
  intros n u y. unfold of_days. destruct (Z.leb_spec 1 n) as [L|L]; cbn [andb].
  - destruct (ord_of n L) as [I O]. destruct (ord2ymd n) as [[a b] c] eqn:E. pose proof (ord_year a b c I) as Y. rewrite O in Y.
    destruct (Z.leb_spec n MAXORDINAL) as [M|M].
    + split; intro H.
      * injection H as <-. cbn [day_of yr mo dy us]. apply Y in M. auto.
      * destruct H as (H1 & H2 & H3 & H4). f_equal. destruct y as [y1 y2 y3 y4]. cbn [day_of yr mo dy us] in *. subst u.
        pose proof (ord_inverse _ H1) as V. rewrite H3, E in V. injection V as -> -> ->. reflexivity.
    + split; intro H; [discriminate H|]. destruct H as (H1 & H2 & H3 & H4). exfalso.
      destruct y as [y1 y2 y3 y4]. unfold day_of in *. cbn [yr mo dy us] in *. apply (ord_year y1 y2 y3 H1) in H2. lia.
  - split; intro H; [discriminate H|]. destruct H as (H1 & H2 & H3 & H4). pose proof (ord_pos _ H1). lia.
Qed.
Lemma stamp_eq : forall x u, us x = Some u -> stamp x = ord (day_of x) * DAY_US + u.
Proof. intros x u H. unfold stamp. rewrite H. reflexivity. Qed.
Lemma add_td_spec : forall x u k y, is_moment x -> us x = Some u ->
  (add_td x k = Ok y <-> is_moment y /\ us y <> None /\ stamp y = stamp x + k).
Proof.
  intros x u k y (_ & _ & Hu) E. rewrite E in Hu. unfold add_td. rewrite E. rewrite of_days_spec.
  change (ymd2ord (yr x) (mo x) (dy x)) with (ord (day_of x)). rewrite (stamp_eq x u E).
  pose proof (Z.div_mod (u + k) DAY_US ltac:(unfold DAY_US; lia)) as D. pose proof (Z.mod_pos_bound (u + k) DAY_US ltac:(unfold DAY_US; lia)) as B.
  change day_us with DAY_US in *. unfold is_moment. change day_us with DAY_US.
  split.
  - intros (H1 & H2 & H3 & H4). rewrite (stamp_eq y _ H4), H3, H4. split; [auto|]. split; [discriminate|]. nia.
  - intros ((H1 & H2 & H3) & H4 & H5). destruct (us y) as [v|] eqn:V; [|contradiction]. rewrite (stamp_eq y v V) in H5.
    destruct (div_is (u + k) DAY_US (ord (day_of y) - ord (day_of x)) v) as [-> ->]; [lia|nia|]. split; [exact H1|]. split; [exact H2|]. split; [lia|reflexivity].
Qed.
Lemma sub_td_add : forall x u k, us x = Some u -> sub_td x k = add_td x (- k).
Proof. intros x u k E. unfold sub_td, add_td. rewrite E. reflexivity. Qed.
Lemma elapsed_stamp : forall x y u v k, is_moment x -> is_moment y -> us x = Some u -> us y = Some v ->
  (elapsed (day_of x) u (day_of y) v k <-> stamp y = stamp x + k).
Proof.
  intros x y u v k (Ix & _ & _) (Iy & _ & _) Eu Ev. rewrite (stamp_eq x u Eu), (stamp_eq y v Ev). unfold elapsed.
  change day_us with DAY_US. split.
  - intros (n & [[D ->]|[D ->]]); apply days_after_ord in D; try assumption; rewrite D; nia.
  - intro H. set (a := ord (day_of x)) in *. set (b := ord (day_of y)) in *. exists (Z.to_nat (Z.abs (b - a))). destruct (Z_le_gt_dec a b).
    + left. rewrite days_after_ord by assumption. fold a b. rewrite Z2Nat.id by lia. rewrite Z.abs_eq by lia. lia.
    + right. rewrite days_after_ord by assumption. fold a b. rewrite Z2Nat.id by lia. rewrite Z.abs_neq by lia. lia.
Qed.

(** Date values: whole days only. *)
Lemma date_td_spec : forall x n y, is_moment x -> us x = None ->
  (of_days (ord (day_of x) + n) None = Ok y <-> is_moment y /\ us y = None /\ ord (day_of y) = ord (day_of x) + n).
Proof.
  intros x n y _ E. rewrite of_days_spec. unfold is_moment. split.
  - intros (H1 & H2 & H3 & H4). rewrite H4. auto.
  - intros ((H1 & H2 & _) & H4 & H5). auto.
Qed.

(** ** Replacing the month *)
Lemma replace_ok : forall x y m d, replace_ymd x y m d =
  if (1 <=? y) && (y <=? 9999) && (1 <=? m) && (m <=? 12) && (1 <=? d) && (d <=? month_length y m)
  then Ok (mkmoment y m d (us x)) else Err ValueError.
Proof.
  intros. unfold replace_ymd. destruct ((1 <=? y) && (y <=? 9999)); [|reflexivity]. cbn [andb].
  destruct (Z.leb_spec 1 m); [|reflexivity]. destruct (Z.leb_spec m 12); [|reflexivity]. rewrite dim_agree by lia. reflexivity.
Qed.
Lemma earlier_bad : forall fuel x y m d, ~ (1 <= y <= 9999 /\ 1 <= m <= 12) -> earlier_day fuel x y m d = None.
Proof.
  induction fuel as [|f IH]; intros x y m d H; [reflexivity|]. cbn [earlier_day]. destruct (1 <=? d); [|reflexivity].
  rewrite replace_ok.
  assert ((1 <=? y) && (y <=? 9999) && (1 <=? m) && (m <=? 12) = false) as ->.
  { apply not_true_iff_false. intro T. apply H. rewrite !andb_true_iff, !Z.leb_le in T. lia. }
  cbn [andb]. apply IH, H.
Qed.
Lemma earlier_good : forall fuel x y m d, 1 <= y <= 9999 -> 1 <= m <= 12 -> month_length y m <= d -> d <= Z.of_nat fuel ->
  earlier_day fuel x y m d = Some (mkmoment y m (month_length y m) (us x)).
Proof.
  induction fuel as [|f IH]; intros x y m d Hy Hm Hd Hf; pose proof (length_bounds y m Hm); [lia|]. cbn [earlier_day].
  destruct (Z.leb_spec 1 d); [|lia]. rewrite replace_ok.
  assert ((1 <=? y) && (y <=? 9999) && (1 <=? m) && (m <=? 12) && (1 <=? d) = true) as -> by (rewrite !andb_true_iff, !Z.leb_le; lia).
  cbn [andb]. destruct (Z.leb_spec d (month_length y m)).
  - assert (d = month_length y m) as -> by lia. reflexivity.
  - apply IH; lia.
Qed.
(** A day in a given month: the month's last day if the month is shorter; NULL outside years 1 to 9999. *)
Definition put (x : moment) (d : day) : option moment :=
  let '(y, m, d) := d in if (1 <=? y) && (y <=? 9999) then Some (mkmoment y m d (us x)) else None.
Lemma clamp : forall x y m, is_moment x -> 1 <= m <= 12 ->
  match replace_ymd x y m (dy x) with Ok z => Some z | Err _ => earlier_day (Z.to_nat (dy x)) x y m (dy x - 1) end =
  put x (y, m, Z.min (dy x) (month_length y m)).
Proof.
  intros x y m ((_ & _ & Hd) & _) Hm. pose proof (length_bounds y m Hm). rewrite replace_ok. unfold put.
  destruct ((1 <=? y) && (y <=? 9999)) eqn:Y; cbn [andb].
  - rewrite andb_true_iff, !Z.leb_le in Y.
    assert ((1 <=? m) && (m <=? 12) && (1 <=? dy x) = true) as E by (rewrite !andb_true_iff, !Z.leb_le; lia). rewrite E. cbn [andb].
    destruct (Z.leb_spec (dy x) (month_length y m)); [rewrite Z.min_l by lia; reflexivity|].
    rewrite Z.min_r by lia. rewrite earlier_good by lia. reflexivity.
  - rewrite earlier_bad; [reflexivity|]. intros [Y1 _]. apply not_true_iff_false in Y. apply Y. rewrite andb_true_iff, !Z.leb_le. lia.
Qed.

(** C218-C221: UNIX timestamps and conversions between dates, times and datetimes. *)
From Verif Require Import Base PyVal Agg_Model Date_Model Date_Spec Date_Proofs Unix_Spec Unix_Model.
Open Scope Z_scope.

(** A wall clock as the calendar has it. *)
Definition is_clock (w : moment) (u : Z) : Prop := is_moment w /\ us w = Some u.

Lemma epoch_clock : is_clock EPOCH 0.
Proof. split; [|reflexivity]. split; [cbn; lia|]. split; cbn; unfold day_us; lia. Qed.
Lemma epoch_stamp : forall w u k, is_clock w u -> (elapsed (1970, 1, 1) 0 (day_of w) u k <-> stamp w = stamp EPOCH + k).
Proof. intros w u k [M U]. exact (elapsed_stamp EPOCH w 0 u k (proj1 epoch_clock) M eq_refl U). Qed.
Lemma plus_td : forall w u k y, is_clock w u -> (add_td w k = Ok y <-> exists v, is_clock y v /\ stamp y = stamp w + k).
Proof.
  intros w u k y [M U]. rewrite (add_td_spec w u k y M U). split.
  - intros (H1 & H2 & H3). destruct (us y) as [v|] eqn:V; [|contradiction]. exists v. split; [split; assumption|exact H3].
  - intros (v & [H1 H2] & H3). split; [exact H1|]. split; [congruence|exact H3].
Qed.

(** C218. FROM_UNIXTIME(n) shows, on a clock of the session's zone, the moment n seconds after 1970-01-01 00:00:00 UTC; it is NULL
    only if that moment, on a UTC clock or on the session's, lies outside of years 1 to 9999. *)
Theorem from_unixtime_moment : forall zone n w o, 
  from_unixtime zone (POther (VInt n)) = PDatetime w (Some o) <->
  o = zone n /\
  (exists u, is_clock w u /\ since_epoch (day_of w) u o (n * 1000000)) /\
  (exists w0 u0, is_clock w0 u0 /\ since_epoch (day_of w0) u0 0 (n * 1000000)).
Proof.
  intros zone n w o. unfold from_unixtime. cbn [py_int bind]. unfold since_epoch. split.
  - intro H. destruct (add_td EPOCH (n * 1000000)) as [utc|e] eqn:E1; cbn [bind] in H; [|discriminate H].
    destruct (add_td utc (zone n * 1000000)) as [w1|e] eqn:E2; cbn [bind] in H; [|discriminate H].
    assert (w1 = w /\ zone n = o) as [-> <-] by (injection H as -> ->; auto). clear H. split; [reflexivity|].
    apply (plus_td _ _ _ _ epoch_clock) in E1. destruct E1 as (v & C & S).
    pose proof (proj1 (plus_td _ _ _ _ C) E2) as (v2 & C2 & S2). split.
    + exists v2. split; [exact C2|]. apply (epoch_stamp _ _ _ C2). rewrite S2, S. lia.
    + exists utc, v. split; [exact C|]. apply (epoch_stamp _ _ _ C). lia.
  - intros (-> & (u & C & H) & w0 & u0 & C0 & H0). apply (epoch_stamp _ _ _ C) in H. apply (epoch_stamp _ _ _ C0) in H0.
    assert (add_td EPOCH (n * 1000000) = Ok w0) as ->.
    { apply (plus_td _ _ _ _ epoch_clock). exists u0. split; [exact C0|lia]. }
    cbn [bind]. assert (add_td w0 (zone n * 1000000) = Ok w) as ->; [|reflexivity].
    apply (plus_td _ _ _ _ C0). exists u. split; [exact C|lia].
Qed.
Theorem from_unixtime_null : forall zone n,
  from_unixtime zone (POther (VInt n)) = PNull <->
  ~ ((exists w u, is_clock w u /\ since_epoch (day_of w) u (zone n) (n * 1000000)) /\
     (exists w0 u0, is_clock w0 u0 /\ since_epoch (day_of w0) u0 0 (n * 1000000))).
Proof.
  intros zone n. split.
  - intros H ((w & u & C & S) & W0). 
    assert (from_unixtime zone (POther (VInt n)) = PDatetime w (Some (zone n))) as X; [|congruence].
    apply from_unixtime_moment. split; [reflexivity|]. split; [exists u; auto|exact W0].
  - intro N. destruct (from_unixtime zone (POther (VInt n))) as [|w [o|]|d|u|v] eqn:E; [reflexivity|exfalso; apply N| | | |].
    + apply from_unixtime_moment in E. destruct E as (-> & (u & C) & W0). split; [exists w, u; exact C|exact W0].
    + exfalso. revert E. unfold from_unixtime. cbn [py_int bind]. destruct (add_td EPOCH _); cbn [bind]; [|discriminate].
      destruct (add_td _ _); cbn [bind]; discriminate.
    + exfalso. revert E. unfold from_unixtime. cbn [py_int bind]. destruct (add_td EPOCH _); cbn [bind]; [|discriminate].
      destruct (add_td _ _); cbn [bind]; discriminate.
    + exfalso. revert E. unfold from_unixtime. cbn [py_int bind]. destruct (add_td EPOCH _); cbn [bind]; [|discriminate].
      destruct (add_td _ _); cbn [bind]; discriminate.
    + exfalso. revert E. unfold from_unixtime. cbn [py_int bind]. destruct (add_td EPOCH _); cbn [bind]; [|discriminate].
      destruct (add_td _ _); cbn [bind]; discriminate.
Qed.

Lemma mktime_stamp : forall loc w u, is_clock w u -> mktime loc w = (stamp w - stamp EPOCH) / 1000000 - loc.
Proof.
  intros loc w u [M U]. unfold mktime. rewrite (stamp_eq w u U), U. rewrite (stamp_eq EPOCH 0 eq_refl).
  change (ymd2ord (yr w) (mo w) (dy w)) with (ord (day_of w)). change (ymd2ord 1970 1 1) with (ord (day_of EPOCH)).
  replace (ord (day_of w) * DAY_US + u - (ord (day_of EPOCH) * DAY_US + 0)) with (u + ((ord (day_of w) - ord (day_of EPOCH)) * 86400) * 1000000) by (unfold DAY_US; ring).
  rewrite Z.div_add by discriminate. ring.
Qed.

(** C219. UNIX_TIMESTAMP of a datetime [o] seconds ahead of UTC is the whole seconds since the epoch less the offset of the machine
    the program runs on, whatever the session's zone. *)
Theorem unix_timestamp_shifted : forall now loc w u o n,
  is_clock w u -> (exists w0 u0, is_clock w0 u0 /\ elapsed (day_of w) u (day_of w0) u0 (- o * 1000000)) ->
  epoch_seconds (day_of w) u o n ->
  unix_timestamp now loc (PDatetime w (Some o)) = Some (n - loc).
Proof.
  intros now loc w u o n C (w0 & u0 & C0 & H0) (r & R & S). unfold since_epoch in S. apply (epoch_stamp _ _ _ C) in S.
  destruct C as [M U]. destruct C0 as [M0 U0]. apply (elapsed_stamp w w0 u u0 _ M M0 U U0) in H0.
  unfold unix_timestamp, utctimetuple. rewrite (sub_td_add w u _ U).
  assert (add_td w (- (o * 1000000)) = Ok w0) as ->.
  { apply (plus_td w u _ _ (conj M U)). exists u0. split; [split; assumption|lia]. }
  rewrite (mktime_stamp loc w0 u0 (conj M0 U0)). f_equal. f_equal.
  replace (stamp w0 - stamp EPOCH) with (r + n * 1000000) by lia. rewrite Z.div_add by discriminate.
  rewrite Z.div_small by lia. lia.
Qed.
(** So it is SQL's UNIX_TIMESTAMP exactly on machines whose own clock is UTC's. *)
Theorem unix_timestamp_exact_utc : forall loc,
  (forall now w u o n, is_clock w u ->
     (exists w0 u0, is_clock w0 u0 /\ elapsed (day_of w) u (day_of w0) u0 (- o * 1000000)) ->
     epoch_seconds (day_of w) u o n -> unix_timestamp now loc (PDatetime w (Some o)) = Some n) <-> loc = 0.
Proof.
  intro loc. split.
  - intro H. specialize (H 0 EPOCH 0 0 0 epoch_clock).
    rewrite (unix_timestamp_shifted 0 loc EPOCH 0 0 0 epoch_clock) in H.
    + assert (Some (0 - loc) = Some 0) as X; [apply H|injection X; lia].
      * exists EPOCH, 0. split; [exact epoch_clock|]. exists 0%nat. left. split; [reflexivity|reflexivity].
      * exists 0. split; [lia|]. exists 0%nat. left. split; reflexivity.
    + exists EPOCH, 0. split; [exact epoch_clock|]. exists 0%nat. left. split; reflexivity.
    + exists 0. split; [lia|]. exists 0%nat. left. split; reflexivity.
  - intros -> now w u o n C I S. rewrite (unix_timestamp_shifted now 0 w u o n C I S). f_equal. lia.
Qed.
(** The round trip through FROM_UNIXTIME loses the machine's offset. *)
Theorem unix_round_trip : forall now loc zone n w o,
  from_unixtime zone (POther (VInt n)) = PDatetime w o -> unix_timestamp now loc (PDatetime w o) = Some (n - loc).
Proof.
  intros now loc zone n w [o|] H.
  - apply from_unixtime_moment in H. destruct H as (-> & (u & C & S) & w0 & u0 & C0 & S0).
    apply (unix_timestamp_shifted now loc w u (zone n) n C).
    + exists w0, u0. split; [exact C0|]. unfold since_epoch in *. apply (epoch_stamp _ _ _ C) in S. apply (epoch_stamp _ _ _ C0) in S0.
      apply (elapsed_stamp w w0 u u0); [apply C|apply C0|apply C|apply C0|lia].
    + exists 0. split; [lia|]. rewrite Z.add_0_r. exact S.
  - revert H. unfold from_unixtime. cbn [py_int bind]. destruct (add_td EPOCH _); cbn [bind]; [|discriminate].
    destruct (add_td _ _); cbn [bind]; discriminate.
Qed.
(** In Shanghai (8 hours ahead) 2024-01-01 00:00:00 UTC comes back 8 hours early, whatever the session's zone. *)
Theorem unix_timestamp_refuted : forall now,
  from_unixtime (fun _ => 0) (POther (VInt 1704067200)) = PDatetime (mkmoment 2024 1 1 (Some 0)) (Some 0) /\
  unix_timestamp now 28800 (PDatetime (mkmoment 2024 1 1 (Some 0)) (Some 0)) = Some (1704067200 - 28800).
Proof. intro now. split; vm_compute; reflexivity. Qed.

(** C220. UNIX_TIMESTAMP of a date (which SQL takes as its midnight) or of a text is NULL. *)
Theorem unix_timestamp_date_refuted : forall now loc,
  (forall d, unix_timestamp now loc (PDate d) = None) /\ (forall v, unix_timestamp now loc (POther v) = None).
Proof. intros now loc. split; reflexivity. Qed.

(** C221. DATE and TIME take a datetime apart: together they determine its wall clock, DATE and TIME of DATETIME(x) are those of x,
    and each of the three is idempotent. *)
Theorem date_time_split : forall parse w o w' o', us w <> None -> us w' <> None ->
  mysql_date parse (PDatetime w o) = mysql_date parse (PDatetime w' o') ->
  mysql_time parse (PDatetime w o) = mysql_time parse (PDatetime w' o') -> w = w'.
Proof.
  intros parse [a b c u] o [a' b' c' u'] o' U U' D T. cbn in *. destruct u; [|contradiction]. destruct u'; [|contradiction]. injection D as -> -> ->. unfold clock in T. cbn in T. injection T as ->. reflexivity.
Qed.
Theorem date_time_of_datetime : forall parse offset today x,
  (forall d, parsed parse x = Ok (PDate d) -> us d = None) ->
  mysql_time parse (mysql_datetime parse offset today x) = mysql_time parse x /\
  ((forall u, parsed parse x <> Ok (PTime u)) -> mysql_date parse (mysql_datetime parse offset today x) = mysql_date parse x).
Proof.
  intros parse offset today x D. unfold mysql_date, mysql_time, mysql_datetime.
  destruct (parsed parse x) as [y|e]; cbn [bind guard]; [|split; reflexivity]. destruct y as [|w o|d|u|v]; split; try reflexivity.
  - intros _. cbn [parsed bind guard yr mo dy]. specialize (D d eq_refl). destruct d as [a b c u]. cbn in *. subst u. reflexivity.
  - intro H. destruct (H u eq_refl).
Qed.
Theorem conversions_idempotent : forall parse offset today x,
  mysql_date parse (mysql_date parse x) = mysql_date parse x /\
  mysql_time parse (mysql_time parse x) = mysql_time parse x /\
  mysql_datetime parse offset today (mysql_datetime parse offset today x) = mysql_datetime parse offset today x.
Proof.
  intros parse offset today x. unfold mysql_date, mysql_time, mysql_datetime.
  destruct (parsed parse x) as [y|e]; cbn [bind guard]; [|repeat split]. destruct y; repeat split.
Qed.
Theorem time_of_datetime : forall parse offset today u,
  mysql_date parse (mysql_datetime parse offset today (PTime u)) = PDate (mkmoment (yr today) (mo today) (dy today) None).
Proof. reflexivity. Qed.

Example unix_case : from_unixtime (fun _ => 19800) (POther (VInt (-1))) = PDatetime (mkmoment 1970 1 1 (Some 19799000000)) (Some 19800) /\
  is_clock (mkmoment 1970 1 1 (Some 19799000000)) 19799000000 /\ since_epoch (1970, 1, 1) 19799000000 19800 (-1 * 1000000).
Proof.
  split; [vm_compute; reflexivity|]. split; [split; [|reflexivity]; split; [cbn; lia|split; cbn; unfold day_us; lia]|].
  exists 0%nat. left. split; reflexivity.
Qed.
Example from_unixtime_too_late : from_unixtime (fun _ => 0) (POther (VInt 253402300800)) = PNull /\
  from_unixtime (fun _ => 0) (POther (VInt 253402300799)) <> PNull.
Proof. split; vm_compute; [reflexivity|discriminate]. Qed.

Print Assumptions from_unixtime_moment.
Print Assumptions unix_timestamp_shifted.
Print Assumptions unix_round_trip.

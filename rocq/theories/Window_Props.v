(** Properties of the window functions (C24): each row of a partition gets the value SQL prescribes for its
    place in the window order. *)
From Coq Require Import SpecFloat.
From Verif Require Import Base PyVal Utils_Model Calc_Model Agg_Model Agg_Proofs Window_Model Window_Spec.
Open Scope Z_scope.

(** ROW_NUMBER numbers the rows of a partition 1, 2, 3, ... *)
Theorem row_number_counts : forall datas i, row_number datas i = Ok (VInt (Z.of_nat i + 1)).
Proof. reflexivity. Qed.

Lemma pyindex_nat : forall A (l : list A) j, 0 <= j < Z.of_nat (length l) -> pyindex l j = nth_error l (Z.to_nat j).
Proof.
  intros A l j H. unfold pyindex.
  destruct (Z.ltb_spec j 0); [lia|]. destruct (Z.ltb_spec j 0); [lia|]. reflexivity.
Qed.

(** The row [k] places from row [i] of the partition, if it is inside. *)
Definition row_at (datas : list wrow) (i : nat) (k : Z) : option wrow :=
  if Z.of_nat i + k <? 0 then None else nth_error datas (Z.to_nat (Z.of_nat i + k)).

Lemma row_at_in : forall datas i k, 0 <= Z.of_nat i + k < Z.of_nat (length datas) ->
  pyindex datas (Z.of_nat i + k) = row_at datas i k.
Proof. intros. rewrite pyindex_nat by lia. unfold row_at. destruct (Z.ltb_spec (Z.of_nat i + k) 0); [lia|reflexivity]. Qed.
Lemma row_at_out : forall datas i k, ~ 0 <= Z.of_nat i + k < Z.of_nat (length datas) -> row_at datas i k = None.
Proof.
  intros. unfold row_at. destruct (Z.ltb_spec (Z.of_nat i + k) 0); [reflexivity|]. apply nth_error_None. lia.
Qed.
Lemma row_at_len : forall datas i k r, row_at datas i k = Some r -> 0 <= Z.of_nat i + k < Z.of_nat (length datas).
Proof.
  unfold row_at. intros datas i k r. destruct (Z.ltb_spec (Z.of_nat i + k) 0); [discriminate|].
  intro H'. assert (nth_error datas (Z.to_nat (Z.of_nat i + k)) <> None) by congruence.
  apply nth_error_Some in H0. lia.
Qed.

Lemma range_test : forall j n, ((j <? 0) || (j >=? n)) = true <-> ~ 0 <= j < n.
Proof.
  intros. rewrite orb_true_iff, Z.ltb_lt. unfold Z.geb.
  destruct (Z.compare_spec j n); split; intro; try lia; try (right; reflexivity).
  all: destruct H0; [lia|discriminate] || lia.
Qed.

(** LAG(x, k, d) and LEAD(x, k, d), for every k: the value of x at the row k places before (after) the
    current one in the same partition, and d when there is no such row; NULL when d is not given. *)
Theorem lag_lead_value : forall datas i x k rest,
  (forall r, row_at datas i (- k) = Some r -> exists v l, snd r = Many (v :: l)) ->
  (forall r, row_at datas i k = Some r -> exists v l, snd r = Many (v :: l)) ->
  lag datas i (Many (x :: VInt k :: rest)) =
    Ok (match row_at datas i (- k) with
        | Some (_, Many (v :: _)) => v
        | _ => match rest with d :: _ => d | [] => VNone end end) /\
  lead datas i (Many (x :: VInt k :: rest)) =
    Ok (match row_at datas i k with
        | Some (_, Many (v :: _)) => v
        | _ => match rest with d :: _ => d | [] => VNone end end).
Proof.
  assert (A : forall sgn datas i x k rest,
    (forall r, row_at datas i (sgn * k) = Some r -> exists v l, snd r = Many (v :: l)) ->
    lag_lead sgn datas i (Many (x :: VInt k :: rest)) =
    Ok (match row_at datas i (sgn * k) with
        | Some (_, Many (v :: _)) => v
        | _ => match rest with d :: _ => d | [] => VNone end end)).
  { intros sgn datas i x k rest H. unfold lag_lead. cbn [nth_error wint py_int bind].
    destruct ((Z.of_nat i + sgn * k <? 0) || (Z.of_nat i + sgn * k >=? Z.of_nat (length datas))) eqn:E.
    - apply range_test in E. rewrite row_at_out by exact E. unfold arg. cbn. destruct rest; reflexivity.
    - assert (0 <= Z.of_nat i + sgn * k < Z.of_nat (length datas)) as B.
      { destruct (Z_lt_dec (Z.of_nat i + sgn * k) 0), (Z_lt_dec (Z.of_nat i + sgn * k) (Z.of_nat (length datas))); try lia;
        exfalso; assert (false = true) by (rewrite <- E; apply range_test; lia); discriminate. }
      rewrite row_at_in by exact B.
      destruct (row_at datas i (sgn * k)) as [r|] eqn:R.
      + destruct (H r eq_refl) as (v & l & F). unfold wfirst. destruct r as [o dd]; cbn in F |- *. rewrite F. reflexivity.
      + exfalso. unfold row_at in R. destruct (Z.ltb_spec (Z.of_nat i + sgn * k) 0); [lia|]. apply nth_error_None in R. lia. }
  intros datas i x k rest H1 H2. split.
  - unfold lag. rewrite A; replace (-1 * k) with (- k) by lia; [reflexivity|exact H1].
  - unfold lead. rewrite A; replace (1 * k) with k by lia; [reflexivity|exact H2].
Qed.

(** LAG(x) and LEAD(x) are LAG(x, 1), LEAD(x, 1). *)
Theorem lag_lead_default : forall (datas : list wrow) i x,
  (forall r, In r datas -> exists v, snd r = One v) ->
  lag datas i (One x) = Ok (match row_at datas i (-1) with Some (_, One v) => v | _ => VNone end) /\
  lead datas i (One x) = Ok (match row_at datas i 1 with Some (_, One v) => v | _ => VNone end).
Proof.
  assert (A : forall sgn (datas : list wrow) i x, (forall r, In r datas -> exists v, snd r = One v) ->
    lag_lead sgn datas i (One x) = Ok (match row_at datas i sgn with Some (_, One v) => v | _ => VNone end)).
  { intros sgn datas i x H. unfold lag_lead.
    destruct ((Z.of_nat i + sgn <? 0) || (Z.of_nat i + sgn >=? Z.of_nat (length datas))) eqn:E.
    - apply range_test in E. rewrite row_at_out by exact E. reflexivity.
    - assert (0 <= Z.of_nat i + sgn < Z.of_nat (length datas)) as B.
      { destruct (Z_lt_dec (Z.of_nat i + sgn) 0), (Z_lt_dec (Z.of_nat i + sgn) (Z.of_nat (length datas))); try lia;
        exfalso; assert (false = true) by (rewrite <- E; apply range_test; lia); discriminate. }
      rewrite row_at_in by exact B.
      destruct (row_at datas i sgn) as [r|] eqn:R.
      + assert (In r datas) as I. { unfold row_at in R. destruct (_ <? 0); [discriminate|]. eapply nth_error_In; eauto. }
        destruct (H r I) as (v & F). unfold wone. destruct r as [o dd]; cbn in F |- *. rewrite F. reflexivity.
      + exfalso. unfold row_at in R. destruct (Z.ltb_spec (Z.of_nat i + sgn) 0); [lia|]. apply nth_error_None in R. lia. }
  intros. split; apply A; assumption.
Qed.

(** FIRST_VALUE and LAST_VALUE are the values of the first and the last row of the whole partition, at
    every row. *)
Theorem first_last_value : forall r (datas : list wrow) s i,
  first_value (r :: datas) i = Ok (snd r) /\ last_value (datas ++ [s]) i = Ok (snd s).
Proof.
  intros r datas s i. split; [reflexivity|]. unfold last_value, pyindex. rewrite app_length.
  cbn [length]. destruct (Z.ltb_spec (-1) 0); [|lia].
  assert (-1 + Z.of_nat (length datas + 1) = Z.of_nat (length datas)) as -> by lia.
  destruct (Z.ltb_spec (Z.of_nat (length datas)) 0); [lia|]. rewrite Nat2Z.id, nth_error_app2, Nat.sub_diag by lia. reflexivity.
Qed.

(** NTH_VALUE(x, n) for n >= 1: x at the n-th row of the partition, NULL (or the third argument) if the
    partition has fewer rows. *)
Theorem nth_value_positive : forall (datas : list wrow) x n rest, 1 <= n ->
  (forall r, In r datas -> exists v l, snd r = Many (v :: l)) ->
  nth_value datas (Many (x :: VInt n :: rest)) =
    Ok (match nth_error datas (Z.to_nat n - 1) with
        | Some (_, Many (v :: _)) => v
        | _ => match rest with d :: _ => d | [] => VNone end end).
Proof.
  intros datas x n rest Hn H. unfold nth_value. cbn [nth_error wint py_int bind].
  assert (n >? 0 = true) as -> by (apply Z.gtb_lt; lia).
  destruct (Z.ltb_spec (n - 1) 0); [lia|]. cbn [andb orb].
  replace (Z.to_nat n - 1)%nat with (Z.to_nat (n - 1)) by lia.
  destruct (Z.geb_spec (n - 1) (Z.of_nat (length datas))).
  - assert (nth_error datas (Z.to_nat (n - 1)) = None) as -> by (apply nth_error_None; lia).
    unfold arg. cbn. destruct rest; reflexivity.
  - rewrite pyindex_nat by lia. destruct (nth_error datas (Z.to_nat (n - 1))) as [r|] eqn:R.
    + destruct (H r (nth_error_In _ _ R)) as (v & l & F). destruct r as [o dd]. unfold wfirst. cbn in F |- *. rewrite F. reflexivity.
    + apply nth_error_None in R. lia.
Qed.
(** NTH_VALUE(x, 0) is the first row (MySQL refuses it), and negative positions count from the end. *)
Theorem nth_value_zero_refuted : forall r datas v l x,
  snd r = Many (v :: l) -> nth_value (r :: datas) (Many [x; VInt 0]) = Ok v.
Proof.
  intros r datas v l x F. unfold nth_value. cbn [nth_error wint py_int bind].
  cbn -[Z.of_nat]. destruct (Z.geb_spec 0 (Z.of_nat (S (length datas)))); [lia|].
  unfold wfirst. rewrite F. reflexivity.
Qed.

(** ** RANK and DENSE_RANK *)

Lemma scan_rank : forall os o r n i,
  nth_error (map rank_final (scan rank_step (Some (o, r, n)) os)) i =
  if (i <? length os)%nat then Some (r + count_rows (fun x => negb (pyeq x o)) (firstn (S i) os)) else None.
Proof.
  induction os as [|a os IH]; intros o r n i.
  - cbn. destruct i; reflexivity.
  - cbn [scan rank_step map]. destruct i as [|i].
    + cbn [nth_error rank_final length Nat.ltb Nat.leb firstn]. f_equal. unfold count_rows. cbn [filter].
      destruct (pyeq a o); cbn; lia.
    + cbn [nth_error]. rewrite IH. cbn [length].
      change (S i <? S (length os))%nat with (i <? length os)%nat.
      destruct (i <? length os)%nat; [|reflexivity]. f_equal.
      change (firstn (S (S i)) (a :: os)) with (a :: firstn (S i) os).
      unfold count_rows. cbn [filter]. destruct (pyeq a o); cbn [negb length]; lia.
Qed.
Lemma scan_dense : forall os o r n,
  map dense_final (scan dense_step (Some (o, r)) os) = map rank_final (scan rank_step (Some (o, r, n)) os).
Proof.
  induction os as [|a os IH]; intros o r n; [reflexivity|].
  cbn [scan rank_step dense_step map]. f_equal. apply IH.
Qed.

(** What RANK and DENSE_RANK compute, exactly: 1 + the number of rows so far whose order value differs from
    that of the FIRST row of the partition. *)
Theorem rank_code_exact : forall o os i, (i <= length os)%nat ->
  nth_error (ranks (o :: os)) i = Some (1 + count_rows (fun x => negb (pyeq x o)) (firstn i os)) /\
  dense_ranks (o :: os) = ranks (o :: os).
Proof.
  intros o os i H. split.
  - unfold ranks. cbn [scan rank_step map]. destruct i as [|i]; [reflexivity|].
    cbn [nth_error]. rewrite scan_rank. destruct (Nat.ltb_spec i (length os)); [reflexivity|lia].
  - unfold ranks, dense_ranks. cbn [scan rank_step dense_step map]. f_equal. apply scan_dense.
Qed.

(** Pairwise different order values. *)
Definition all_different (os : list val) : Prop :=
  forall i j a b, i <> j -> nth_error os i = Some a -> nth_error os j = Some b -> pyeq a b = false.

Lemma filter_all : forall A (p : A -> bool) l, (forall x, In x l -> p x = true) -> filter p l = l.
Proof.
  induction l as [|a l IH]; intro H; [reflexivity|]. cbn. rewrite H by (left; reflexivity). f_equal.
  apply IH. intros. apply H. right. assumption.
Qed.
Lemma In_firstn_nth : forall A (l : list A) n x, In x (firstn n l) -> exists j, (j < n)%nat /\ nth_error l j = Some x.
Proof.
  induction l as [|a l IH]; intros n x H; [destruct n; destruct H|].
  destruct n; [destruct H|]. destruct H as [->|H].
  - exists 0%nat. split; [lia|reflexivity].
  - destruct (IH _ _ H) as (j & Hj & E). exists (S j). split; [lia|exact E].
Qed.
Lemma changes_different : forall os, all_different os -> os <> [] -> changes os = Z.of_nat (length os) - 1.
Proof.
  induction os as [|a [|b os] IH]; intros D N; [congruence|reflexivity|].
  change (changes (a :: b :: os)) with ((if pyeq a b then 0 else 1) + changes (b :: os)).
  rewrite (D 0%nat 1%nat a b) by (reflexivity || lia).
  rewrite IH; [cbn [length]; lia| |discriminate].
  intros i j x y Hij Hi Hj. apply (D (S i) (S j)); [lia|exact Hi|exact Hj].
Qed.

(** When no two rows are peers, RANK and DENSE_RANK are what SQL prescribes: the row number. *)
Theorem rank_without_ties : forall os i, all_different os -> (i < length os)%nat ->
  nth_error (ranks os) i = Some (sql_rank os i) /\
  nth_error (dense_ranks os) i = Some (sql_dense_rank os i) /\
  sql_rank os i = Z.of_nat i + 1 /\ sql_dense_rank os i = Z.of_nat i + 1.
Proof.
  intros os i D H. destruct os as [|o os]; [cbn in H; lia|].
  assert (R : sql_rank (o :: os) i = Z.of_nat i + 1).
  { unfold sql_rank. destruct (nth_error (o :: os) i) as [x|] eqn:E; [|apply nth_error_None in E; lia].
    unfold count_rows. rewrite filter_all.
    - rewrite firstn_length. lia.
    - intros y Hy. apply In_firstn_nth in Hy as (j & Hj & F). rewrite (D j i y x) by (assumption || lia). reflexivity. }
  assert (S' : sql_dense_rank (o :: os) i = Z.of_nat i + 1).
  { unfold sql_dense_rank. rewrite changes_different.
    - rewrite firstn_length. lia.
    - intros a b x y Hab Ha Hb. apply (D a b); [exact Hab| |];
      match goal with K : nth_error (firstn _ _) ?n = Some _ |- nth_error _ ?n = _ =>
        rewrite <- (firstn_skipn (S i) (o :: os)), nth_error_app1; [exact K|];
        apply nth_error_Some; rewrite K; discriminate end.
    - cbn. discriminate. }
  assert (C : nth_error (ranks (o :: os)) i = Some (Z.of_nat i + 1)).
  { destruct (rank_code_exact o os i) as [E _]; [cbn in H; lia|]. rewrite E. f_equal.
    unfold count_rows. rewrite filter_all.
    - rewrite firstn_length. cbn in H. lia.
    - intros y Hy. apply In_firstn_nth in Hy as (j & Hj & F). rewrite (D (S j) 0%nat y o) by (reflexivity || assumption || lia). reflexivity. }
  destruct (rank_code_exact o os 0) as [_ DD]; [lia|]. rewrite DD, R, S'. auto.
Qed.

(** With peers they are wrong: every row after the first group of peers gets a new rank, also among peers,
    and RANK leaves no gaps. *)
Theorem rank_ties_refuted : forall a b, pyeq a a = true -> pyeq b b = true -> pyeq a b = false ->
  (ranks [a; b; b] = [1; 2; 3] /\ sql_rank [a; b; b] 2 = 2) /\
  (dense_ranks [a; b; b] = [1; 2; 3] /\ sql_dense_rank [a; b; b] 2 = 2) /\
  (ranks [a; a; b] = [1; 1; 2] /\ sql_rank [a; a; b] 2 = 3).
Proof.
  intros a b Ha Hb Hab. assert (pyeq b a = false) as Hba by (rewrite pyeq_sym; exact Hab).
  unfold ranks, dense_ranks, sql_rank, sql_dense_rank, count_rows.
  cbn [scan rank_step dense_step map rank_final dense_final nth_error firstn filter changes].
  rewrite Ha, Hb, Hab, ?Hba. cbn [negb length].
  repeat split; try lia; try reflexivity.
Qed.

(** ** PERCENT_RANK, CUME_DIST, NTILE *)

(** PERCENT_RANK of a partition of one row is 0, but already for two different rows it is not
    (rank - 1) / (rows - 1); it computes rank - 1/rows_so_far - 1. *)
Theorem percent_rank_refuted : forall a b, pyeq a a = true -> pyeq a b = false ->
  percent_ranks [a] = [Ok (VInt 0)] /\
  exists f, percent_ranks [a; b] = [Ok (VInt 0); Ok (VFloat f)] /\ pyeq (VFloat f) (VInt 1) = false.
Proof.
  intros a b Ha Hab. assert (pyeq b a = false) as Hba by (rewrite pyeq_sym; exact Hab).
  split; [reflexivity|]. exists (S754_finite false 4503599627370496 (-53)).
  unfold percent_ranks. cbn [scan rank_step map]. rewrite Hba. split; vm_compute; reflexivity.
Qed.
(** CUME_DIST of the only row of a partition is 2 instead of 1. *)
Theorem cume_dist_refuted : forall r, exists f, cume_dist [r] 0 = Ok (VFloat f) /\ pyeq (VFloat f) (VInt 2) = true.
Proof. intro r. exists (S754_finite false 4503599627370496 (-51)). split; vm_compute; reflexivity. Qed.

(** NTILE(n) is NULL for n <= 0; uneven
    partitions are split differently from SQL. *)
Theorem ntile_nonpositive : forall datas i n, n <= 0 -> ntile datas i (One (VInt n)) = Ok VNone.
Proof. intros. unfold ntile. cbn [wint py_int bind]. destruct (Z.leb_spec n 0); [reflexivity|lia]. Qed.
Theorem ntile_uneven_refuted : forall r,
  map (fun i => ntile (repeat r 6) i (One (VInt 4))) [0; 1; 2; 3; 4; 5]%nat =
    map (fun z => Ok (VInt z)) [1; 1; 2; 3; 3; 4] /\
  map (fun i => sql_ntile 6 4 (Z.of_nat i)) [0; 1; 2; 3; 4; 5]%nat = [1; 1; 2; 2; 3; 4].
Proof. intro r. split; vm_compute; reflexivity. Qed.

Print Assumptions row_number_counts. Print Assumptions lag_lead_value. Print Assumptions lag_lead_default.
Print Assumptions first_last_value. Print Assumptions nth_value_positive. Print Assumptions nth_value_zero_refuted.
Print Assumptions rank_code_exact. Print Assumptions rank_without_ties. Print Assumptions rank_ties_refuted.
Print Assumptions percent_rank_refuted. Print Assumptions cume_dist_refuted. Print Assumptions ntile_nonpositive.
Print Assumptions ntile_uneven_refuted.

Definition wex : list wrow :=
  map (fun z => (VInt z, Many [VInt (10 * z); VInt 2; VInt 99])) [1; 2; 3].
Example window_examples :
  (forall r, In r wex -> exists v l, snd r = Many (v :: l)) /\ all_different (map fst wex) /\
  lag wex 2 (Many [VInt 30; VInt 2; VInt 99]) = Ok (VInt 10) /\
  lead wex 2 (Many [VInt 30; VInt 2; VInt 99]) = Ok (VInt 99) /\
  nth_value wex (Many [VInt 30; VInt 3]) = Ok (VInt 30) /\
  ranks (map fst wex) = [1; 2; 3].
Proof.
  split; [|split; [|repeat split; reflexivity]].
  - intros r [<-|[<-|[<-|[]]]]; cbn; eauto.
  - intros i j a b N Hi Hj. destruct i as [|[|[|i]]]; destruct j as [|[|[|j]]]; cbn in Hi, Hj; try congruence;
      try (destruct i; discriminate); try (destruct j; discriminate); injection Hi as <-; injection Hj as <-; reflexivity.
Qed.

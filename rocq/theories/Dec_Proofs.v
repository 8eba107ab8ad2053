(** str(int) read back by int() gives the same integer. *)
From Verif Require Import Base PyVal Utils_Model Utils_Spec Utils_Proofs.
Open Scope Z_scope.

Lemma decval_snoc : forall ds c, decval (ds ++ [c]) = 10 * decval ds + (Z.of_N c - 48).
Proof. intros. unfold decval. rewrite fold_left_app. reflexivity. Qed.

Lemma digits_fuel_spec : forall f z acc, 0 <= z < 10 ^ Z.of_nat f -> (0 < f)%nat ->
  exists ds, digits_fuel f z acc = ds ++ acc /\ digits ds /\ decval ds = z.
Proof.
  assert (D : forall z, 0 <= z < 10 -> digit (digit_char z) /\ Z.of_N (digit_char z) - 48 = z).
  { intros z H. unfold digit, digit_char. split; lia. }
  induction f as [|f IH]; intros z acc Hz Hf; [lia|]. cbn [digits_fuel].
  destruct (z <? 10) eqn:E.
  - apply Z.ltb_lt in E. destruct (D z ltac:(lia)) as [A B]. exists [digit_char z]. split; [reflexivity|]. split; [split; [discriminate|repeat constructor; apply A]|].
    unfold decval. cbn [fold_left]. lia.
  - apply Z.ltb_ge in E. assert (0 < f)%nat.
    { destruct f; [|lia]. cbn in Hz. lia. }
    assert (0 <= z / 10 < 10 ^ Z.of_nat f).
    { replace (Z.of_nat (S f)) with (1 + Z.of_nat f) in Hz by lia. rewrite Z.pow_add_r in Hz by lia.
      split; [apply Z.div_pos; lia|]. apply Z.div_lt_upper_bound; lia. }
    destruct (IH (z / 10) (digit_char (z mod 10) :: acc)) as (ds & K & [N1 N2] & V); auto.
    destruct (D (z mod 10)) as [A B]; [apply Z.mod_pos_bound; lia|].
    exists (ds ++ [digit_char (z mod 10)]). split; [rewrite K, <- app_assoc; reflexivity|]. split.
    + split; [destruct ds; discriminate|]. apply Forall_app. split; auto.
    + rewrite decval_snoc, V, B. pose proof (Z.div_mod z 10). lia.
Qed.

Lemma str_of_nonneg_spec : forall z, 0 <= z -> digits (str_of_nonneg z) /\ decval (str_of_nonneg z) = z.
Proof.
  intros z Hz. unfold str_of_nonneg.
  destruct (digits_fuel_spec (S (Z.to_nat (Z.log2 z))) z []) as (ds & E & D & V); [|lia|].
  - split; [exact Hz|]. rewrite Nat2Z.inj_succ, Z2Nat.id by apply Z.log2_nonneg.
    destruct (Z.eq_dec z 0) as [->|N]; [reflexivity|].
    pose proof (Z.log2_spec z ltac:(lia)) as [_ L]. eapply Z.lt_le_trans; [exact L|].
    apply Z.pow_le_mono_l. lia.
  - rewrite E, app_nil_r. auto.
Qed.

Lemma int_str_round_trip : forall z, int_of_text (str_of_Z z) = Ok z.
Proof.
  intros z. apply int_of_text_literal. unfold str_of_Z, int_literal. destruct (z <? 0) eqn:E.
  - apply Z.ltb_lt in E. destruct (str_of_nonneg_spec (- z)) as [D V]; [lia|].
    exists [], (t "-"), [str_of_nonneg (- z)], []. cbn [join_us concat]. rewrite app_nil_r.
    split; [reflexivity|]. repeat split; auto; try discriminate. right. split; [reflexivity|]. rewrite V; lia.
  - apply Z.ltb_ge in E. destruct (str_of_nonneg_spec z E) as [D V].
    exists [], [], [str_of_nonneg z], []. cbn [join_us concat app]. rewrite !app_nil_r.
    split; [reflexivity|]. repeat split; auto; try discriminate.
Qed.

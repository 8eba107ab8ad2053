(** NULL arguments of the string functions and of the encoding functions (C194, C195), and NTH_VALUE without a number (added to the property
    of NTH_VALUE).  The functions are those of Str_Model and Codec_Model. *)
From Coq Require Import Lia SpecFloat.
From Verif Require Import Base PyVal Utils_Model Calc_Model Calc_Proofs Calc_Props Str_Model Str_Props Codec_Model Agg_Model Window_Model.
Open Scope Z_scope.

Section Nulls.
Variable frepr : spec_float -> text.
(** Functions of one argument. *)
Definition one_argument (white : N -> bool) : list (val -> res val) :=
  [mysql_char_length frepr; mysql_length; mysql_bit_length; mysql_trim frepr white; mysql_reverse frepr].
(** Functions of two, three and four arguments. *)
Definition two_arguments : list (val -> val -> res val) :=
  [mysql_right frepr; mysql_repeat frepr; mysql_strcmp frepr; mysql_startswith frepr; mysql_endswith frepr; mysql_contains frepr].
Definition three_arguments : list (val -> val -> val -> res val) := [mysql_replace frepr; mysql_substring_index frepr].

Lemma estr_none : exists e, estr frepr VNone = Err e. Proof. eexists. reflexivity. Qed.

Theorem string_functions_null : forall white a b c d,
  (forall f, In f (one_argument white) -> sql1 f VNone = VNone) /\
  (forall f, In f two_arguments -> sql2 f VNone a = VNone /\ sql2 f a VNone = VNone) /\
  (forall f, In f three_arguments -> sql3 f [VNone; a; b] = VNone /\ sql3 f [a; VNone; b] = VNone /\ sql3 f [a; b; VNone] = VNone) /\
  (In VNone [a; b; c; d] -> sql4 (mysql_insert frepr) [a; b; c; d] = VNone) /\
  sql2 (mysql_left frepr) VNone a = VNone /\
  sql3 (mysql_substring frepr) [VNone; a; b] = VNone /\ sql3 (mysql_substring frepr) [a; VNone; b] = VNone.
Proof.
  intros white a b c d. destruct estr_none as [e E].
  assert (N : need_int VNone = Err TypeError) by reflexivity.
  split; [|split; [|split; [|split; [|split; [|split]]]]].
  - intros f H. cbn [one_argument In] in H. decompose [or] H; try contradiction; subst f; reflexivity.
  - intros f H. cbn [two_arguments In] in H. decompose [or] H; try contradiction; subst f; split; rewrite sql2_eq; try reflexivity.
    + unfold mysql_right. destruct (is_none a); [reflexivity|]. destruct (estr frepr a); reflexivity.
    + unfold mysql_repeat. destruct (is_none a); [reflexivity|]. destruct (estr frepr a); reflexivity.
    + unfold mysql_strcmp. rewrite Bool.orb_true_r. reflexivity.
    + unfold mysql_startswith. rewrite Bool.orb_true_r. reflexivity.
    + unfold mysql_endswith. rewrite Bool.orb_true_r. reflexivity.
    + unfold mysql_contains. rewrite Bool.orb_true_r. reflexivity.
  - intros f H. cbn [three_arguments In] in H. unfold sql3.
    decompose [or] H; try contradiction; subst f; split; [reflexivity|split|reflexivity|split].
    + cbn. unfold mysql_replace. destruct (is_none a); [reflexivity|]. destruct (estr frepr a); reflexivity.
    + cbn. unfold mysql_replace. destruct (is_none a); [reflexivity|]. destruct (estr frepr a); [|reflexivity]. cbn [bind]. destruct (need_str b TypeError); reflexivity.
    + cbn. unfold mysql_substring_index. destruct (is_none a); [reflexivity|]. destruct (estr frepr a); reflexivity.
    + cbn. unfold mysql_substring_index. destruct (is_none a); [reflexivity|]. destruct (estr frepr a); [|reflexivity]. cbn [bind]. destruct (estr frepr b); reflexivity.
  - intros H. unfold sql4. cbn. unfold mysql_insert. cbn [In] in H. destruct H as [->|[->|[->|[->|[]]]]].
    + reflexivity.
    + destruct (estr frepr a), (estr frepr d); reflexivity.
    + destruct (estr frepr a), (estr frepr d), (need_int b); reflexivity.
    + destruct (estr frepr a); reflexivity.
  - reflexivity.
  - reflexivity.
  - unfold sql3. cbn. unfold mysql_substring. destruct (is_none a); [reflexivity|]. destruct (estr frepr a); reflexivity.
Qed.

Theorem encodings_null : forall crc32 aton ntoa,
  Forall (fun f => guarded (f (Val VNone)) = Val VNone)
    [mysql_bin; mysql_hex; mysql_unhex frepr; mysql_oct; mysql_ord frepr; mysql_ascii frepr; (fun v => mysql_char [v]); mysql_crc32 crc32;
     mysql_from_base64; mysql_to_base64; mysql_inet_aton aton; mysql_inet_ntoa ntoa; mysql_is_ip aton].
Proof. intros. repeat constructor. Qed.

(** Not so: a NULL length is no length, and FIND_IN_SET in a NULL set is 0. *)
Theorem null_length_refuted : forall s, sql2 (mysql_left frepr) (VStr s) VNone = VStr s /\
  sql3 (mysql_substring frepr) [VStr s; VInt 1; VNone] = VStr s /\ sql2 (mysql_find_in_set frepr) (VStr s) VNone = VInt 0.
Proof.
  intros s. split; [reflexivity|split; [|reflexivity]]. unfold sql3. cbn. unfold mysql_substring. cbn [is_none estr ensure_str bind need_str as_int need_int].
  replace (1 - 1)%Z with 0%Z by reflexivity. unfold pyslice, clampidx. cbn [Z.ltb Z.compare]. replace (Z.min 0 (Z.of_nat (length s))) with 0%Z by lia. cbn [Z.to_nat skipn]. rewrite Nat.sub_0_r, firstn_all. reflexivity.
Qed.
End Nulls.

(** NTH_VALUE(x) without a number is the value of the first row of the frame. *)
Theorem nth_value_default : forall r v (datas : list wrow) x, snd r = One v -> nth_value (r :: datas) (One x) = Ok v.
Proof. intros r v datas x H. cbn. unfold wone. rewrite H. reflexivity. Qed.

Print Assumptions string_functions_null.
Print Assumptions encodings_null.
Print Assumptions null_length_refuted.
Print Assumptions nth_value_default.
Example nth_value_default_example : nth_value [(VInt 1, One (VInt 5)); (VInt 2, One (VInt 7))] (One (VInt 7)) = Ok (VInt 5).
Proof. apply (nth_value_default (VInt 1, One (VInt 5)) (VInt 5)). reflexivity. Qed.

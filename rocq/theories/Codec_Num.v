(** C86-C88: numbers in other bases, character codes, checksums and addresses. *)
From Coq Require Import SpecFloat.
From Verif Require Import Base PyVal Utils_Model Calc_Model Str_Model Str_Spec Codec_Model Codec_Spec Codec_Proofs Codec_Props.
Open Scope N_scope.

(** C86: the digits of BIN, OCT and HEX of a number denote it. *)
Lemma number_snoc : forall b l d, number b (l ++ [d]) = number b l * b + d.
Proof. intros. unfold number. rewrite fold_left_app. reflexivity. Qed.
Lemma digits_go_app : forall fuel b n acc, digits_go fuel b n acc = digits_go fuel b n [] ++ acc.
Proof.
  induction fuel as [|f IH]; intros b n acc; [reflexivity|]. cbn [digits_go]. destruct (n <? b); [reflexivity|].
  rewrite IH, (IH b (n / b) [n mod b]), <- app_assoc. reflexivity.
Qed.
Lemma digits_denote : forall b n, 2 <= b -> number b (digits b n) = n /\ Forall (fun d => d < b) (digits b n).
Proof.
  intros b n B. unfold digits.
  assert (L : n < 2 ^ N.of_nat (S (N.size_nat n))).
  { rewrite Nat2N.inj_succ, N.pow_succ_r'. assert (n < 2 ^ N.of_nat (N.size_nat n)); [|lia]. 
    replace (N.of_nat (N.size_nat n)) with (N.size n) by (destruct n as [|p]; [reflexivity|]; cbn; induction p; cbn; lia). apply N.size_gt. }
  revert L. generalize (S (N.size_nat n)) as fuel. intro fuel. revert n.
  induction fuel as [|f IH]; intros n L; [cbn in L; split; [cbn; lia|constructor]|]. cbn [digits_go].
  destruct (N.ltb_spec n b) as [H|H]; [split; [reflexivity|constructor; [exact H|constructor]]|].
  rewrite digits_go_app, number_snoc. destruct (IH (n / b)) as [E F].
  { apply N.div_lt_upper_bound; [lia|]. rewrite Nat2N.inj_succ, N.pow_succ_r' in L. nia. }
  rewrite E. split; [rewrite N.mul_comm; symmetry; apply N.div_mod; lia|]. apply Forall_app. split; [exact F|]. constructor; [apply N.mod_lt; lia|constructor].
Qed.

Lemma digits_written : forall b n, 2 <= b -> b <= 16 -> written b (digits b n) (map hex_char (digits b n)).
Proof.
  intros b n B C. destruct (digits_denote b n B) as [_ F]. split; [|exact F]. apply map_ext_in. intros d H. apply hex_facts.
  rewrite Forall_forall in F. specialize (F d H). lia.
Qed.

(** BIN and HEX of an integer: sign, prefix, and the digits of its absolute value. *)
Theorem bin_hex_digits : forall z, exists ds es s e,
  guarded (mysql_bin (Val (VInt z))) = Val (VStr ((if (z <? 0)%Z then t "-" else []) ++ t "0b" ++ s)) /\ written 2 ds s /\ number 2 ds = Z.abs_N z /\
  guarded (mysql_hex (Val (VInt z))) = Val (VStr ((if (z <? 0)%Z then t "-" else []) ++ t "0x" ++ e)) /\ written 16 es e /\ number 16 es = Z.abs_N z.
Proof.
  intro z. exists (digits 2 (Z.abs_N z)), (digits 16 (Z.abs_N z)). do 2 eexists. split; [reflexivity|].
  split; [apply digits_written; lia|]. split; [apply digits_denote; lia|]. split; [reflexivity|].
  split; [apply digits_written; lia|]. apply digits_denote; lia.
Qed.
(** So neither is ever just the digits, and UNHEX does not read what HEX writes. *)
Lemma nth_digit : forall d, d < 16 -> In (nth (N.to_nat d) digit_chars 0) digit_chars.
Proof. intros d H. apply nth_In. change (length digit_chars) with 16%nat. lia. Qed.
Lemma not_written : forall b ds s c, b <= 16 -> In c s -> ~ In c digit_chars -> ~ written b ds s.
Proof.
  intros b ds s c B I N [E F]. subst s. apply in_map_iff in I. destruct I as [d [<- I]]. apply N. apply nth_digit.
  rewrite Forall_forall in F. specialize (F d I). lia.
Qed.
Theorem bin_hex_prefix_refuted : forall frepr z ds,
  (forall s, guarded (mysql_bin (Val (VInt z))) = Val (VStr s) -> ~ written 2 ds s) /\
  (forall s, guarded (mysql_hex (Val (VInt z))) = Val (VStr s) -> ~ written 16 ds s) /\
  guarded (mysql_unhex frepr (guarded (mysql_hex (Val (VInt z))))) = Val VNone.
Proof.
  intros frepr z ds. split; [|split].
  - intros s H W. assert (E : s = radix 2 98 z) by (unfold mysql_bin in H; cbn [int_of bind guarded] in H; congruence). subst s. unfold radix in *.
    destruct (z <? 0)%Z.
    + refine (not_written 2 ds _ 45 _ _ _ W); [lia|left; reflexivity|vm_compute; intuition discriminate].
    + destruct W as [W F]. destruct ds as [|d1 [|d2 ds]]; try discriminate W. injection W as _ W _.
      inversion F as [|? ? _ F1]; subst. inversion F1 as [|? ? H2 _]; subst. assert (d2 = 0 \/ d2 = 1) as [-> | ->] by lia; discriminate W.
  - intros s H W. assert (E : s = radix 16 120 z) by (unfold mysql_hex in H; cbn [int_of bind guarded] in H; congruence). subst s.
    refine (not_written 16 ds _ 120 _ _ _ W); [lia|unfold radix; apply in_or_app; right; right; left; reflexivity|vm_compute; intuition discriminate].
  - unfold mysql_hex. cbn [int_of bind guarded]. unfold mysql_unhex, bstr, estr. cbn [ensure_str bind need_str]. unfold radix. destruct (z <? 0)%Z; reflexivity.
Qed.

(** OCT of a number that is not negative is its octal form; of a negative one it is not. *)
Theorem oct_digits : forall n, exists ds s, guarded (mysql_oct (Val (VInt (Z.of_N n)))) = Val (VStr s) /\ written 8 ds s /\ number 8 ds = n.
Proof.
  intro n. exists (digits 8 n), (map hex_char (digits 8 n)). split; [|split; [apply digits_written; lia|apply digits_denote; lia]].
  unfold mysql_oct. cbn [int_of bind guarded]. unfold radix. replace (Z.of_N n <? 0)%Z with false by (symmetry; apply Z.ltb_ge; lia). cbn [app].
  replace (Z.abs_N (Z.of_N n)) with n by lia. generalize (map hex_char (digits 8 n)). intro l.
  unfold pyslice, clampidx. cbn [length]. change (2 <? 0)%Z with false. cbv iota.
  replace (Z.to_nat (Z.min 2 (Z.of_nat (S (S (length l)))))) with 2%nat by lia. cbn [skipn]. rewrite firstn_all2; [reflexivity|]. cbn [length]. lia.
Qed.
Theorem oct_negative_refuted : forall z, (z < 0)%Z -> exists r, guarded (mysql_oct (Val (VInt z))) = Val (VStr (t "o" ++ r)).
Proof.
  intros z H. exists (map hex_char (digits 8 (Z.abs_N z))). unfold mysql_oct. cbn [int_of bind guarded]. unfold radix.
  replace (z <? 0)%Z with true by (symmetry; apply Z.ltb_lt; exact H). cbn [app].
  generalize (map hex_char (digits 8 (Z.abs_N z))). intro l.
  unfold pyslice, clampidx. cbn [length]. change (2 <? 0)%Z with false. cbv iota.
  replace (Z.to_nat (Z.min 2 (Z.of_nat (S (S (S (length l))))))) with 2%nat by lia. cbn [skipn]. rewrite firstn_all2; [reflexivity|]. cbn [length]. lia.
Qed.

(** HEX of the empty text is written like the number 0, so UNHEX does not give it back. *)
Theorem hex_empty_refuted : forall frepr, guarded (mysql_hex (Val (VStr []))) = Val (VStr (t "0x0")) /\
  guarded (mysql_unhex frepr (guarded (mysql_hex (Val (VStr []))))) = Val VNone.
Proof. intro. split; reflexivity. Qed.

(** C87: character codes. *)
Theorem char_ord : forall frepr ns, Forall (fun n => n < 1114112) ns ->
  guarded (mysql_char (map (fun n => Val (VInt (Z.of_N n))) ns)) = Val (VStr ns) /\
  forall n, In n ns -> guarded (mysql_ord frepr (Val (VStr [n]))) = Val (VInt (Z.of_N n)).
Proof.
  intros frepr ns H. split; [|reflexivity]. unfold mysql_char.
  assert (E : map_res py_chr (map (fun n => Val (VInt (Z.of_N n))) ns) = Ok ns); [|rewrite E; reflexivity].
  induction H as [|n ns L _ IH]; [reflexivity|]. cbn [map map_res]. rewrite IH. unfold py_chr. cbn [as_int].
  replace ((0 <=? Z.of_N n) && (Z.of_N n <? 1114112))%Z with true by (symmetry; apply andb_true_iff; split; [apply Z.leb_le|apply Z.ltb_lt]; lia).
  rewrite N2Z.id. reflexivity.
Qed.
(** ASCII is the code of a single character, and ORD too; of a longer text ASCII is the sum of all codes and ORD is NULL. *)
Theorem ascii_single : forall frepr c, guarded (mysql_ascii frepr (Val (VStr [c]))) = Val (VInt (Z.of_N c)).
Proof. intros. cbn. rewrite N.add_0_r. reflexivity. Qed.
Theorem ascii_refuted : forall frepr c d r, 0 < d -> guarded (mysql_ascii frepr (Val (VStr (c :: d :: r)))) <> Val (VInt (Z.of_N c)) /\
  guarded (mysql_ord frepr (Val (VStr (c :: d :: r)))) = Val VNone.
Proof.
  intros frepr c d r H. split; [|reflexivity]. unfold mysql_ascii, bstr, estr. cbn [ensure_str bind need_str guarded fold_right].
  intro E. injection E as E. apply N2Z.inj in E. lia.
Qed.

(** C88: CRC32 of every text (and of every value but bytes) is NULL; INET_NTOA never reads what INET_ATON writes. *)
Theorem crc32_refuted : forall crc32 v, guarded (mysql_crc32 crc32 (Val v)) = Val VNone.
Proof. intros crc32 []; reflexivity. Qed.
Theorem inet_refuted : forall aton ntoa v, guarded (mysql_inet_ntoa ntoa (guarded (mysql_inet_aton aton v))) = Val VNone.
Proof.
  intros aton ntoa [[]|]; try reflexivity. unfold mysql_inet_aton. destruct (aton s); reflexivity.
Qed.
(** IS_IPV4 (IS_IPV6) holds exactly of the texts of which INET_ATON is not NULL; it is NULL only of NULL. *)
Theorem is_ip_iff : forall aton v,
  (guarded (mysql_is_ip aton v) = Val (VInt 1) <-> guarded (mysql_inet_aton aton v) <> Val VNone) /\
  (guarded (mysql_is_ip aton v) = Val VNone <-> v = Val VNone) /\
  (guarded (mysql_is_ip aton v) = Val VNone \/ guarded (mysql_is_ip aton v) = Val (VInt 0) \/ guarded (mysql_is_ip aton v) = Val (VInt 1)).
Proof.
  intros aton [[]|]; unfold mysql_is_ip, mysql_inet_aton; try (destruct (aton s)); cbn [try_ bind guarded]; intuition (try discriminate; auto).
Qed.

Example base64_example : guarded (mysql_to_base64 (Val (VStr (t "ab" ++ [233])))) = Val (VStr (t "YWLDqQ==")) /\ Forall scalar (t "ab" ++ [233]).
Proof. split; [reflexivity|]. repeat constructor. Qed.
Example hex_example : guarded (mysql_hex (Val (VStr (t "Hi")))) = Val (VStr (t "4869")) /\ guarded (mysql_hex (Val (VInt 255))) = Val (VStr (t "0xff"))
  /\ guarded (mysql_bin (Val (VInt (-5)))) = Val (VStr (t "-0b101")) /\ guarded (mysql_oct (Val (VInt 64))) = Val (VStr (t "100")).
Proof. repeat split; reflexivity. Qed.

Print Assumptions base64_roundtrip.
Print Assumptions to_base64_standard.
Print Assumptions hex_text.
Print Assumptions bin_hex_prefix_refuted.
Print Assumptions oct_digits.
Print Assumptions char_ord.
Print Assumptions is_ip_iff.

(** Property theorems C09 (numeric coercion) and C10 (SET literals). *)
From Coq Require Import SpecFloat.
From Verif Require Import Base PyVal Utils_Model Utils_Spec Utils_Proofs.
Open Scope Z_scope.

(** C09, text to integer: the literal's value, else the value of the longest run of leading digits,
    else failure. *)
Theorem coerce_int_text : forall s, s <> [] ->
  (forall z, int_literal s z -> ensure_int (VStr s) = Ok (VInt z)) /\
  ((forall z, ~ int_literal s z) -> forall ds, leading_digits s ds ->
     ensure_int (VStr s) = if (length ds =? 0)%nat then Err ValueError else Ok (VInt (decval ds))).
Proof. exact ensure_int_text. Qed.
Print Assumptions coerce_int_text.

(** every text has a longest run of leading digits, so the theorem above covers every text *)
Theorem leading_digits_total : forall s, exists ds, leading_digits s ds.
Proof. exact leading_digits_exists. Qed.
Print Assumptions leading_digits_total.

Example coerce_int_text_ex1 : int_literal (t " -1_000 ") (-1000).
Proof.
  exists (t " "), (t "-"), [t "1"; t "000"], (t " ").
  split; [reflexivity|]. split; [repeat constructor; unfold white; cbn; lia|].
  split; [repeat constructor; unfold white; cbn; lia|]. split; [discriminate|].
  split; [|right; split; reflexivity].
  constructor; [|constructor; [|constructor]]; (split; [discriminate|repeat constructor; unfold digit; cbn; lia]).
Qed.
Example coerce_int_text_ex2 : leading_digits (t "12px") (t "12") /\ (forall z, ~ int_literal (t "12px") z).
Proof.
  split.
  - exists (t "px"). split; [reflexivity|]. split; [repeat constructor; unfold digit; cbn; lia|].
    unfold digit. cbn. lia.
  - intros z H. apply int_of_text_literal in H. vm_compute in H. discriminate.
Qed.

(** C09, text to number without a '.': as integers. *)
Theorem coerce_number_no_dot : forall s, s <> [] -> ~ In 46%N s ->
  ensure_number (VStr s) = ensure_int (VStr s).
Proof.
  intros s Hn H. assert (D : has_dot s = false).
  { unfold has_dot. destruct (existsb (N.eqb 46) s) eqn:E; auto.
    apply existsb_exists in E as (x & H1 & H2). apply N.eqb_eq in H2. subst x. tauto. }
  unfold ensure_number. destruct s as [|c s]; [congruence|]. cbn [truthy negb]. rewrite D.
  unfold ensure_int. cbn [truthy negb]. destruct (int_of_text (c :: s)); reflexivity.
Qed.
Print Assumptions coerce_number_no_dot.

(** C09, text to number with a '.': digits "." digits followed by anything that is not a digit
    (when the whole text is not itself a float literal) is the decimal number they denote,
    correctly rounded; "12.xyz" is 12. *)
Theorem coerce_number_decimal : forall ip fp rest, digits ip -> Forall digit fp ->
  match rest with [] => True | c :: _ => ~ digit c end ->
  (forall f, float_of_text (ip ++ 46%N :: fp ++ rest) <> Ok f) ->
  ensure_number (VStr (ip ++ 46%N :: fp ++ rest)) =
  Ok (VFloat (decimal_float false (decval (ip ++ fp)) (- Z.of_nat (length fp)))).
Proof.
  intros ip fp rest Hi Hf Hr Hno.
  assert (E : exists e, float_of_text (ip ++ 46%N :: fp ++ rest) = Err e).
  { destruct (float_of_text (ip ++ 46%N :: fp ++ rest)); [elim (Hno a eq_refl)|eauto]. }
  destruct E as [e E].
  assert (D : has_dot (ip ++ 46%N :: fp ++ rest) = true).
  { unfold has_dot. apply existsb_exists. exists 46%N. split; [apply in_or_app; right; left; auto|reflexivity]. }
  assert (P := parse_number_decimal ip fp rest Hi Hf Hr).
  set (s := ip ++ 46%N :: fp ++ rest) in *.
  assert (T : truthy (VStr s) = true).
  { unfold s. destruct ip; reflexivity. }
  unfold ensure_number. rewrite T. cbn [negb]. rewrite D, E. cbn [bind try_].
  unfold ensure_float. rewrite T. cbn [negb]. rewrite E. cbn [bind try_]. exact P.
Qed.
Print Assumptions coerce_number_decimal.

Example coerce_number_decimal_ex :
  ensure_number (VStr (t "12.50 kg")) = Ok (VFloat (decimal_float false 1250 (-2))) /\
  ensure_number (VStr (t "12.kg")) = Ok (VFloat (decimal_float false 12 0)).
Proof. split; vm_compute; reflexivity. Qed.

(** C09: NULL always fails, empty/false/zero values are 0 or themselves, integers are unchanged. *)
Theorem coerce_null_and_identity : forall frepr,
  ensure_int VNone = Err ValueError /\ ensure_float VNone = Err ValueError /\
  ensure_number VNone = Err ValueError /\ ensure_str frepr VNone = Err ValueError /\
  (forall v, v <> VNone -> truthy v = false ->
     (exists r, ensure_int v = Ok r /\ pyeq r (VInt 0) = true) /\
     (exists r, ensure_number v = Ok r /\ pyeq r (VInt 0) = true)) /\
  (forall z, ensure_int (VInt z) = Ok (VInt z) /\ ensure_number (VInt z) = Ok (VInt z)) /\
  (forall f, ensure_number (VFloat f) = Ok (VFloat f)) /\
  (forall s, ensure_str frepr (VStr s) = Ok (VStr s)).
Proof.
  intro frepr. repeat split; auto.
  - destruct v as [|b|z|f|[|c s]| | |]; cbn in *; try congruence.
    + exists (VBool b). subst. auto.
    + exists (VInt z). destruct z; cbn in *; try congruence; auto.
    + exists (VInt 0). destruct f; cbn in *; try congruence; auto.
    + exists (VInt 0). auto.
  - destruct v as [|b|z|f|[|c s]| | |]; cbn in *; try congruence.
    + exists (VBool b). subst. auto.
    + exists (VInt z). destruct z; cbn in *; try congruence; auto.
    + exists (VFloat f). destruct f; cbn in *; try congruence; auto.
    + exists (VInt 0). auto.
Qed.
Print Assumptions coerce_null_and_identity.

(** C10: an ASCII SET value, with any surrounding white space, is parsed to what it denotes. *)
Theorem set_literal_denotes : forall sp isdigit lower,
  (forall c, (c < 128)%N -> (isdigit c = true <-> digit c)) ->
  (forall s, Forall (fun c => c < 128)%N s -> lower s = map lower_letter s) ->
  forall s v, Forall (fun c => c < 128)%N s -> denotes s v ->
  (forall c r, s = c :: r -> sp c = false) -> (forall c r, s = r ++ [c] -> sp c = false) ->
  forall w1 w2, Forall (fun c => sp c = true) w1 -> Forall (fun c => sp c = true) w2 ->
  parse_value sp isdigit lower (w1 ++ s ++ w2) = Ok (val_of_lit v).
Proof. exact parse_value_stripped. Qed.
Print Assumptions set_literal_denotes.

(** C10: any other ASCII text denotes itself. *)
Theorem set_literal_other : forall sp isdigit lower,
  (forall c, (c < 128)%N -> (isdigit c = true <-> digit c)) ->
  (forall s, Forall (fun c => c < 128)%N s -> lower s = map lower_letter s) ->
  forall s, s <> [] -> Forall (fun c => c < 128)%N s -> (forall v, ~ denotes s v) ->
  (forall c r, s = c :: r -> sp c = false) -> (forall c r, s = r ++ [c] -> sp c = false) ->
  forall w1 w2, Forall (fun c => sp c = true) w1 -> Forall (fun c => sp c = true) w2 ->
  parse_value sp isdigit lower (w1 ++ s ++ w2) = Ok (VStr s).
Proof. exact parse_value_other. Qed.
Print Assumptions set_literal_other.

Example set_literal_ex :
  let p := parse_value is_space_ascii is_digit_ascii (map lower_ascii) in
  p (t "  '12' ") = Ok (VStr (t "12")) /\ p (t "-12") = Ok (VInt (-12)) /\ p (t "TRUE") = Ok (VBool true) /\
  p (t "1.5") = Ok (VFloat (decimal_float false 15 (-1))) /\ p (t "abc.d") = Ok (VStr (t "abc.d")) /\
  denotes (t "1.5") (LDec 15 1) /\ (forall v, ~ denotes (t "ab") v).
Proof.
  repeat (split; [vm_compute; reflexivity|]). split.
  - apply (den_dec (t "1") (t "5")); (split; [discriminate|repeat constructor; unfold digit; cbn; lia]).
  - intros v H. remember (t "ab") as s eqn:E. destruct H as [|q q' s Hq Hq'|ds [_ Hd]|ds Hd|s K|s K|s K|ip fp [_ Hi] Hp];
      try discriminate; try (subst s; discriminate K).
    + injection E as E _. subst q. destruct Hq; discriminate.
    + subst ds. inversion Hd as [|? ? K]. unfold digit in K. cbn in K. lia.
    + destruct ip as [|? [|? [|? ?]]]; discriminate.
Qed.

(** C10 is false of the code for signed decimals: "-1.5" stays text (the test at line 30 looks at
    value[0][1:], the tail of a single character, instead of value_info[0][1:]). *)
Theorem set_negative_decimal_refuted :
  parse_value is_space_ascii is_digit_ascii (map lower_ascii) (t "-1.5") = Ok (VStr (t "-1.5")).
Proof. vm_compute. reflexivity. Qed.
Print Assumptions set_negative_decimal_refuted.

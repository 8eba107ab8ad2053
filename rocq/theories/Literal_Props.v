(** C52, C53: text literals and the other constants. *)
From Coq Require Import Lia SpecFloat.
From Verif Require Import Base PyVal Literal_Model Literal_Spec Literal_Proofs.
Local Open Scope N_scope.

(** A literal without characters 128..256 is what its escape sequences denote; when they denote nothing the literal is kept as it
    is written. *)
Theorem literal_meaning : forall uname s, (forall c, In c s -> c < 128 \/ 256 < c) ->
  denotes uname s (literal uname s) \/ (forall v, ~ denotes uname s v) /\ literal uname s = s.
Proof.
  intros uname s NL. unfold literal. pose proof (scan_spec uname s [] ) as K. cbn [app] in K.
  assert (A : ascii []) by (intros c []). destruct (scan uname [] s) as [v|] eqn:E.
  - left. apply (K v A NL). reflexivity.
  - right. split; [|reflexivity]. intros v D. apply (K v A NL) in D. discriminate.
Qed.
Print Assumptions literal_meaning.
(** The meaning is unique. *)
Theorem literal_unique : forall uname s v, (forall c, In c s -> c < 128 \/ 256 < c) -> denotes uname s v -> literal uname s = v.
Proof.
  intros uname s v NL D. unfold literal. assert (A : ascii []) by (intros c []).
  apply (scan_spec uname s [] v A NL) in D. rewrite D. reflexivity.
Qed.
Print Assumptions literal_unique.

Lemma unescape_plain uname s : ~ In 92 s -> forall fuel, (length s <= fuel)%nat -> unescape uname fuel s = Some s.
Proof.
  induction s as [|c s IH]; intros H fuel L; [destruct fuel; reflexivity|].
  destruct fuel as [|fuel]; cbn [length] in L; [lia|]. cbn [unescape].
  rewrite (proj2 (N.eqb_neq c 92)) by (intros ->; apply H; left; reflexivity). cbn [negb].
  rewrite IH by (try lia; intros G; apply H; right; exact G). reflexivity.
Qed.
Definition mangled (c : N) : text := if (128 <=? c) && (c <=? 256) then [192 + c / 64; 128 + c mod 64] else [c].
Lemma utf8_mangled s : (forall c, In c s -> c <= 256) -> flat_map utf8 s = flat_map mangled s.
Proof.
  intros H. induction s as [|c s IH]; [reflexivity|]. cbn [flat_map]. rewrite IH by (intros x I; apply H; right; exact I). f_equal.
  unfold utf8, mangled. specialize (H c (or_introl eq_refl)). rewrite (proj2 (N.leb_le c 256) H), Bool.andb_true_r.
  destruct (N.ltb_spec c 128), (N.leb_spec 128 c); try lia; reflexivity.
Qed.
Lemma mangled_no_backslash s : ~ In 92 s -> ~ In 92 (flat_map mangled s).
Proof.
  intros H I. apply in_flat_map in I. destruct I as (c & Ic & I). unfold mangled in I.
  destruct (N.leb_spec 128 c), (N.leb_spec c 256); cbn [andb] in I; cbn [In] in I.
  - revert I. generalize (c / 64), (c mod 64). intros a b [I|[I|[]]]; lia.
  - destruct I as [->|[]]. contradiction.
  - destruct I as [->|[]]. contradiction.
  - lia.
Qed.
Lemma decode_plain uname run : ~ In 92 run -> (forall c, In c run -> c <= 256) -> decode uname run = Some (flat_map mangled run).
Proof.
  intros H L. unfold decode. rewrite (utf8_mangled run L). cbv zeta. apply unescape_plain; [|lia].
  apply mangled_no_backslash, H.
Qed.
Lemma scan_plain uname s : forall run, ~ In 92 run -> (forall c, In c run -> c <= 256) -> ~ In 92 s ->
  scan uname run s = Some (flat_map mangled (run ++ s)).
Proof.
  induction s as [|c s IH]; intros run Hr Lr Hs; cbn [scan].
  - rewrite app_nil_r. destruct run as [|x run]; [reflexivity|]. rewrite (decode_plain uname _ Hr Lr), app_nil_r. reflexivity.
  - assert (Hs' : ~ In 92 s) by (intros I; apply Hs; right; exact I).
    destruct (N.leb_spec c 256) as [Hc|Hc].
    + rewrite IH; auto.
      * rewrite <- app_assoc. reflexivity.
      * intros I. apply in_app_or in I. destruct I as [I|[->|[]]]; [contradiction|]. apply Hs. left. reflexivity.
      * intros x I. apply in_app_or in I. destruct I as [I|[<-|[]]]; auto.
    + rewrite (IH [] ltac:(intros []) ltac:(intros x []) Hs'). cbn [app].
      assert (M : flat_map mangled (c :: s) = c :: flat_map mangled s).
      { cbn [flat_map]. unfold mangled at 1. rewrite (proj2 (N.leb_gt c 256)) by lia. rewrite Bool.andb_false_r. reflexivity. }
      rewrite flat_map_app, M. destruct run as [|x run]; [reflexivity|]. rewrite (decode_plain uname _ Hr Lr). reflexivity.
Qed.
(** Without backslash: every character stays, except 128..256, which become two characters. *)
Theorem literal_characters : forall uname s, ~ In 92 s ->
  literal uname s = flat_map (fun c => if (128 <=? c) && (c <=? 256) then [192 + c / 64; 128 + c mod 64] else [c]) s.
Proof.
  intros uname s H. unfold literal. rewrite (scan_plain uname s [] ltac:(intros []) ltac:(intros x []) H). reflexivity.
Qed.
Print Assumptions literal_characters.
Lemma mangled_length s : (length s <= length (flat_map mangled s))%nat /\
  (length s = length (flat_map mangled s) -> forall c, In c s -> ~ 128 <= c <= 256).
Proof.
  induction s as [|c s [IH1 IH2]]; [split; [cbn; lia|intros _ c []]|]. cbn [flat_map length]. rewrite app_length.
  unfold mangled at 1 3. destruct (N.leb_spec 128 c), (N.leb_spec c 256); cbn [andb length]; (split; [lia|]); try lia;
    intros E; assert (E' : length s = length (flat_map mangled s)) by lia; intros x [<-|I]; try lia; apply IH2; auto.
Qed.
(** Plain text without backslash is unchanged iff it has no character from 128 to 256. *)
Theorem literal_unchanged : forall uname s, ~ In 92 s ->
  (literal uname s = s <-> forall c, In c s -> ~ 128 <= c <= 256).
Proof.
  intros uname s H. rewrite (literal_characters uname s H). change (flat_map _ s) with (flat_map mangled s). split.
  - intros E. apply mangled_length. rewrite E. reflexivity.
  - intros NL. induction s as [|c s IH]; [reflexivity|]. cbn [flat_map].
    rewrite IH; [|intros I; apply H; right; exact I|intros x I; apply NL; right; exact I].
    unfold mangled. specialize (NL c (or_introl eq_refl)).
    destruct (N.leb_spec 128 c), (N.leb_spec c 256); try reflexivity. lia.
Qed.
Print Assumptions literal_unchanged.
(** The text é (233) is not the text é. *)
Theorem latin_text_refuted : forall uname, literal uname [233] = [195; 169].
Proof. reflexivity. Qed.
Print Assumptions latin_text_refuted.

(* ---- every text can be written ---- *)
Definition hex_char (d : N) : N := if d <? 10 then 48 + d else 87 + d.
Fixpoint hexN (n : nat) (c : N) : text := match n with O => [] | S n => hexN n (c / 16) ++ [hex_char (c mod 16)] end.
Definition quoted_char (c : N) : text := if c =? 92 then [92; 92] else if c <? 128 then [c] else 92 :: 85 :: hexN 8 c.
Lemma hex_char_digit d : d < 16 -> hex_digit (hex_char d) d.
Proof. intros H. unfold hex_char. destruct (N.ltb_spec d 10); [apply Hex_num|apply Hex_lower]; lia. Qed.
Lemma hexN_length n : forall c, length (hexN n c) = n.
Proof. induction n as [|n IH]; intros c; [reflexivity|]. cbn [hexN]. rewrite app_length, IH. cbn. lia. Qed.
Lemma hexN_numeral n : forall c, c < bpow 16 n -> numeral hex_digit 16 (hexN n c) c.
Proof.
  induction n as [|n IH]; intros c H.
  - unfold bpow in H. cbn in H. assert (c = 0) by lia. subst. constructor.
  - rewrite bpow_S in H. cbn [hexN]. replace c with (16 * (c / 16) + c mod 16) at 3 by (symmetry; apply N.div_mod; lia). constructor.
    + apply IH. apply N.div_lt_upper_bound; lia.
    + apply hex_char_digit, N.mod_lt. lia.
Qed.
Lemma quoted_denotes uname s : (forall c, In c s -> c <= 1114111) -> denotes uname (flat_map quoted_char s) s.
Proof.
  induction s as [|c s IH]; intros H; [constructor|]. cbn [flat_map].
  assert (D : denotes uname (flat_map quoted_char s) s) by (apply IH; intros x I; apply H; right; exact I).
  specialize (H c (or_introl eq_refl)). unfold quoted_char at 1.
  destruct (N.eqb_spec c 92) as [->|NE]; [apply (D_simple uname 92 92); [left; reflexivity|exact D]|].
  destruct (N.ltb_spec c 128); cbn [app].
  - apply D_plain; assumption.
  - apply (D_hex uname 85 8%nat); auto.
    + right. right. left. reflexivity.
    + apply hexN_numeral. unfold bpow. change (16 ^ N.of_nat 8) with 4294967296. lia.
Qed.
Lemma hexN_ascii n : forall c x, In x (hexN n c) -> x < 128.
Proof.
  induction n as [|n IH]; intros c x I; [destruct I|]. cbn [hexN] in I. apply in_app_or in I. destruct I as [I|[<-|[]]]; [eauto|].
  pose proof (N.mod_lt c 16 ltac:(lia)). unfold hex_char. destruct (N.ltb_spec (c mod 16) 10); lia.
Qed.
Lemma quoted_ascii s : forall c, In c (flat_map quoted_char s) -> c < 128 \/ 256 < c.
Proof.
  intros c I. left. apply in_flat_map in I. destruct I as (x & _ & I). unfold quoted_char in I.
  destruct (x =? 92); [destruct I as [<-|[<-|[]]]; lia|]. destruct (N.ltb_spec x 128).
  - destruct I as [<-|[]]. assumption.
  - destruct I as [<-|[<-|I]]; [lia|lia|]. eapply hexN_ascii, I.
Qed.
(** Every text can be written: double every backslash and write the characters above 127 as \UXXXXXXXX. *)
Theorem literal_round_trip : forall uname s, (forall c, In c s -> c <= 1114111) -> literal uname (flat_map quoted_char s) = s.
Proof. intros uname s H. apply literal_unique; [apply quoted_ascii|apply quoted_denotes, H]. Qed.
Print Assumptions literal_round_trip.

(* ---- cases ---- *)
Definition no_names : text -> option N := fun _ => None.
Example literal_case1 : literal no_names (t "a\nb\x41\101\u4e2d\q\\") = [97; 10; 98; 65; 65; 20013; 92; 113; 92].
Proof. reflexivity. Qed.
(** An invalid escape anywhere keeps the whole literal, so the tab in front of it too. *)
Example literal_case2 : literal no_names (t "\t C:\Users") = t "\t C:\Users" /\ literal no_names (t "\t C:\temp") = [9] ++ t " C:" ++ [9] ++ t "emp".
Proof. split; reflexivity. Qed.
(** A backslash before a character above 256 also spoils the literal: here the line break is kept as two characters. *)
Example literal_case3 : literal no_names (t "\n\" ++ [20013]) = t "\n\" ++ [20013].
Proof. reflexivity. Qed.
Example literal_case4 : literal (fun nm => if text_eqb nm (t "BULLET") then Some 8226 else None) (t "\N{BULLET}x") = [8226; 120].
Proof. reflexivity. Qed.
Example literal_round_trip_case : flat_map quoted_char [233; 92; 110] = t "\U000000e9\\n".
Proof. reflexivity. Qed.

(* ---- other constants ---- *)
(** Numbers with or without sign, TRUE, FALSE, NULL, hexadecimal numbers. *)
Theorem constant_values : forall uname env env' z f b,
  const_value uname env env' false (KInt z) = VInt z /\ const_value uname env env' true (KInt z) = VInt (- z) /\
  const_value uname env env' false (KFloat f) = VFloat f /\ const_value uname env env' true (KFloat f) = VFloat (SFopp f) /\
  const_value uname env env' false (KBool b) = VBool b /\ const_value uname env env' false KNull = VNone /\
  const_value uname env env' false (KHex z) = VInt z.
Proof. intros. repeat split. Qed.
Print Assumptions constant_values.
(** A variable has the value it has when the statement runs, NULL when it is not set. *)
Theorem variable_constant : forall uname env env' n,
  const_value uname env env' false (KParam n) = match env' (t "@" ++ n) with Some v => v | None => VNone end.
Proof. reflexivity. Qed.
Print Assumptions variable_constant.
(** A minus sign is ignored before everything but a number literal: for every variable, text, boolean and hexadecimal number. *)
Theorem minus_ignored_refuted : forall uname env env' c,
  (forall z, c <> KInt z) -> (forall f, c <> KFloat f) ->
  const_value uname env env' true c = const_value uname env env' false c.
Proof. intros uname env env' [z|f|s|b| |z|z|n] H G; try reflexivity; [destruct (H z)|destruct (G f)]; reflexivity. Qed.
Print Assumptions minus_ignored_refuted.
Example minus_variable_case : const_value no_names (fun _ => None) (fun k => if text_eqb k (t "@a") then Some (VInt 5) else None) true (KParam (t "a")) = VInt 5.
Proof. reflexivity. Qed.
(** A bit literal (b'101', 0b101) is NULL. *)
Theorem bit_literal_refuted : forall uname env env' neg z, const_value uname env env' neg (KBit z) = VNone.
Proof. reflexivity. Qed.
Print Assumptions bit_literal_refuted.

(** Proofs about utils.py: numeric coercion. *)
From Coq Require Import SpecFloat.
From Verif Require Import Base PyVal Utils_Model Utils_Spec.
Open Scope Z_scope.

(** ** strip *)
Lemma lstrip_split : forall sp s, exists w,
  s = w ++ lstrip sp s /\ Forall (fun c => sp c = true) w /\
  match lstrip sp s with [] => True | c :: _ => sp c = false end.
Proof.
  intros sp; induction s as [|c s IH].
  - exists []. cbn. auto.
  - cbn [lstrip]. destruct (sp c) eqn:E.
    + destruct IH as (w & H1 & H2 & H3). exists (c :: w). cbn. split; [congruence|]. split; auto.
    + exists []. cbn. auto.
Qed.

Lemma lstrip_white : forall sp w s, Forall (fun c => sp c = true) w -> lstrip sp (w ++ s) = lstrip sp s.
Proof. intros sp w s H. induction H as [|c w Hc H IH]; auto. cbn. rewrite Hc. exact IH. Qed.

Lemma strip_split : forall sp s, exists w1 w2,
  s = w1 ++ strip sp s ++ w2 /\ Forall (fun c => sp c = true) w1 /\ Forall (fun c => sp c = true) w2.
Proof.
  intros sp s. unfold strip.
  destruct (lstrip_split sp s) as (w1 & H1 & H2 & _).
  destruct (lstrip_split sp (rev (lstrip sp s))) as (w2 & H3 & H4 & _).
  exists w1, (rev w2). split; [|split; auto].
  - rewrite H1 at 1. f_equal. rewrite <- (rev_involutive (lstrip sp s)) at 1. rewrite H3 at 1.
    rewrite rev_app_distr. reflexivity.
  - apply Forall_rev. exact H4.
Qed.

Lemma strip_mid : forall sp w1 m w2,
  Forall (fun c => sp c = true) w1 -> Forall (fun c => sp c = true) w2 ->
  (forall c r, m = c :: r -> sp c = false) -> (forall c r, m = r ++ [c] -> sp c = false) ->
  strip sp (w1 ++ m ++ w2) = m.
Proof.
  intros sp w1 m w2 H1 H2 H3 H4. unfold strip. rewrite (lstrip_white sp w1) by auto.
  destruct m as [|c m].
  - cbn [app]. rewrite <- (app_nil_r w2), lstrip_white by auto. reflexivity.
  - assert (Hc := H3 c m eq_refl). cbn [app lstrip]. rewrite Hc.
    change (c :: m ++ w2) with ((c :: m) ++ w2). rewrite rev_app_distr.
    rewrite lstrip_white by (apply Forall_rev; auto).
    destruct (rev (c :: m)) as [|x r] eqn:E.
    + apply (f_equal (@rev N)) in E. rewrite rev_involutive in E. discriminate.
    + assert (E' : c :: m = rev r ++ [x]).
      { apply (f_equal (@rev N)) in E. rewrite rev_involutive in E. exact E. }
      cbn [lstrip]. rewrite (H4 _ _ E'). rewrite <- E, rev_involutive. reflexivity.
Qed.

Lemma is_digit_iff : forall c, is_digit_ascii c = true <-> digit c.
Proof.
  intro c. unfold is_digit_ascii, digit. rewrite andb_true_iff, !N.leb_le. tauto.
Qed.
Lemma is_digit_false : forall c, is_digit_ascii c = false <-> ~ digit c.
Proof. intro c. rewrite <- is_digit_iff. destruct (is_digit_ascii c); intuition congruence. Qed.

Lemma is_space_iff : forall c, is_space_ascii c = true <-> white c.
Proof.
  intro c. unfold is_space_ascii, white.
  rewrite !orb_true_iff, !andb_true_iff, !N.leb_le, N.eqb_eq. tauto.
Qed.
Lemma Forall_white : forall w, Forall (fun c => is_space_ascii c = true) w <-> Forall white w.
Proof. intro w. split; apply Forall_impl; intros c; apply is_space_iff. Qed.

(** ** digits with underscores *)
Definition decfrom (a : Z) (ds : text) : Z := fold_left (fun a c => 10 * a + (Z.of_N c - 48)) ds a.

Lemma digits_us_run : forall g r prev acc, Forall digit g ->
  digits_us (g ++ r) prev acc = digits_us r (match g with [] => prev | _ => true end) (decfrom acc g).
Proof.
  intros g r prev acc H. revert prev acc. induction H as [|c g Hc H IH]; intros; auto.
  cbn [app digits_us]. rewrite (proj2 (is_digit_iff c) Hc).
  rewrite IH. unfold digit_val, decfrom. cbn [fold_left].
  replace (acc * 10) with (10 * acc) by ring. destruct g; reflexivity.
Qed.

Lemma decfrom_app : forall a x y, decfrom a (x ++ y) = decfrom (decfrom a x) y.
Proof. intros. unfold decfrom. apply fold_left_app. Qed.

Lemma digits_us_join : forall gs acc, gs <> [] -> Forall digits gs ->
  digits_us (join_us gs) false acc = Some (decfrom acc (concat gs)).
Proof.
  induction gs as [|g gs IH]; intros acc Hn H; [congruence|].
  inversion H as [|? ? [Hg1 Hg2] H']; subst.
  destruct gs as [|g' gs'].
  - cbn [join_us concat]. rewrite <- (app_nil_r g) at 1. rewrite digits_us_run by auto.
    destruct g; [congruence|]. cbn. rewrite app_nil_r. reflexivity.
  - change (join_us (g :: g' :: gs')) with (g ++ 95%N :: join_us (g' :: gs')).
    rewrite digits_us_run by auto. destruct g as [|c0 g]; [congruence|].
    cbn [digits_us]. change (is_digit_ascii 95) with false. change (95 =? 95)%N with true. cbn [andb].
    rewrite IH by (auto; congruence).
    change (concat ((c0 :: g) :: g' :: gs')) with ((c0 :: g) ++ concat (g' :: gs')).
    rewrite decfrom_app. reflexivity.
Qed.

Lemma digits_us_sound : forall s acc z,
  (digits_us s false acc = Some z ->
     exists gs, gs <> [] /\ Forall digits gs /\ s = join_us gs /\ z = decfrom acc (concat gs)) /\
  (digits_us s true acc = Some z ->
     exists g gs, Forall digit g /\ Forall digits gs /\
       s = g ++ (match gs with [] => [] | _ => 95%N :: join_us gs end) /\
       z = decfrom acc (g ++ concat gs)).
Proof.
  induction s as [|c s IH]; intros acc z; split; intro H.
  - discriminate.
  - cbn in H. exists [], []. cbn. repeat split; auto. congruence.
  - cbn [digits_us] in H. destruct (is_digit_ascii c) eqn:E.
    + apply IH in H. destruct H as (g & gs & H1 & H2 & H3 & H4).
      exists ((c :: g) :: gs). split; [congruence|]. split.
      { constructor; auto. split; [congruence|]. constructor; auto. apply is_digit_iff; auto. }
      split.
      * destruct gs as [|g' gs']; subst s.
        { rewrite app_nil_r. reflexivity. }
        reflexivity.
      * cbn [concat app]. rewrite H4. unfold decfrom. cbn [fold_left]. f_equal.
        unfold digit_val. ring.
    + rewrite andb_false_r in H. discriminate.
  - cbn [digits_us] in H. destruct (is_digit_ascii c) eqn:E.
    + apply IH in H. destruct H as (g & gs & H1 & H2 & H3 & H4).
      exists (c :: g), gs. split; [constructor; auto; apply is_digit_iff; auto|]. split; auto.
      split; [cbn; congruence|]. rewrite H4. unfold decfrom. cbn [fold_left app]. f_equal.
      unfold digit_val. ring.
    + destruct (c =? 95)%N eqn:F; [|discriminate]. cbn [andb] in H. apply N.eqb_eq in F. subst c.
      apply IH in H. destruct H as (gs & H1 & H2 & H3 & H4).
      exists [], gs. split; auto. split; auto. split; [|exact H4].
      destruct gs; [congruence|]. cbn [app]. f_equal. exact H3.
Qed.

Lemma join_us_chars : forall gs, Forall digits gs -> Forall (fun c => digit c \/ c = 95%N) (join_us gs).
Proof.
  induction gs as [|g gs IH]; intro H; [constructor|].
  inversion H as [|? ? [Hg1 Hg2] H']; subst.
  assert (G : Forall (fun c => digit c \/ c = 95%N) g) by (eapply Forall_impl; [|exact Hg2]; auto).
  destruct gs as [|g' gs]; auto.
  change (join_us (g :: g' :: gs)) with (g ++ 95%N :: join_us (g' :: gs)).
  apply Forall_app. split; auto.
Qed.

Lemma join_us_nonempty : forall gs, gs <> [] -> Forall digits gs -> join_us gs <> [].
Proof.
  intros [|g gs] H1 H2; [congruence|]. inversion H2 as [|? ? [Hg _] _]; subst.
  destruct g as [|c g]; [congruence|]. destruct gs; cbn; congruence.
Qed.

Lemma digit_not_sign : forall c, digit c \/ c = 95%N ->
  is_space_ascii c = false /\ (c =? 45)%N = false /\ (c =? 43)%N = false.
Proof.
  intros c H. assert (A : is_space_ascii c <> true).
  { intro K. apply is_space_iff in K. unfold white, digit in *. lia. }
  unfold digit in H. rewrite !N.eqb_neq. destruct (is_space_ascii c); [congruence|].
  repeat split; lia.
Qed.

Lemma text_head_cases : forall (s : text) A (x y : text -> A) (w : A),
  match s with 45%N :: r => x r | 43%N :: r => y r | _ => w end =
  match s with
  | c :: r => if (c =? 45)%N then x r else if (c =? 43)%N then y r else w
  | [] => w
  end.
Proof.
  intros s A x y w. destruct s as [|c r]; auto.
  destruct (c =? 45)%N eqn:E1; [apply N.eqb_eq in E1; subst; reflexivity|].
  destruct (c =? 43)%N eqn:E2; [apply N.eqb_eq in E2; subst; reflexivity|].
  apply N.eqb_neq in E1, E2. destruct c as [|p]; auto.
  repeat (match goal with |- context [match ?q with _ => _ end] => is_var q; destruct q end; try reflexivity; try congruence).
Qed.

Lemma int_of_text_literal : forall s z, int_literal s z -> int_of_text s = Ok z.
Proof.
  intros s z (w1 & sg & gs & w2 & Es & H1 & H2 & Hn & Hg & Hz).
  assert (Hc := join_us_chars gs Hg). assert (Hne := join_us_nonempty gs Hn Hg).
  assert (Hsg : Forall (fun c => is_space_ascii c = false) sg).
  { destruct Hz as [[[E|E] _]|[E _]]; subst sg; repeat constructor. }
  assert (Hall : Forall (fun c => is_space_ascii c = false) (sg ++ join_us gs)).
  { apply Forall_app; split; auto. eapply Forall_impl; [|exact Hc].
    intros c K. apply digit_not_sign in K. tauto. }
  assert (S : strip is_space_ascii s = sg ++ join_us gs).
  { subst s. rewrite (app_assoc sg).
    apply strip_mid; try (apply Forall_white; auto).
    - intros c r E. rewrite E in Hall. inversion Hall; auto.
    - intros c r E. rewrite E in Hall. apply Forall_app in Hall as [_ K]. inversion K; auto. }
  unfold int_of_text. rewrite S. assert (J := digits_us_join gs 0 Hn Hg).
  destruct (join_us gs) as [|c r] eqn:Ej; [congruence|].
  inversion Hc as [|? ? Hc0 _]; subst. apply digit_not_sign in Hc0 as (_ & N1 & N2).
  destruct Hz as [[[E|E] Ez]|[E Ez]]; subst sg; cbn [app t N_of_ascii].
  - rewrite (text_head_cases (c :: r) _ (fun r => option_map Z.opp (digits_us r false 0)) (fun r => digits_us r false 0)).
    rewrite N1, N2, J, Ez. reflexivity.
  - change (digits_us (c :: r) false 0 = Some (decfrom 0 (concat gs))) in J.
    change (N_of_ascii "+") with 43%N. cbn iota. rewrite J, Ez. reflexivity.
  - change (N_of_ascii "-") with 45%N. cbn iota. rewrite J, Ez. reflexivity.
Qed.

Lemma int_of_text_sound : forall s z, int_of_text s = Ok z -> int_literal s z.
Proof.
  intros s z H. unfold int_of_text in H.
  destruct (strip_split is_space_ascii s) as (w1 & w2 & Es & H1 & H2).
  apply Forall_white in H1, H2.
  set (m := strip is_space_ascii s) in *. clearbody m.
  rewrite (text_head_cases m _ (fun r => option_map Z.opp (digits_us r false 0)) (fun r => digits_us r false 0)) in H.
  assert (G : forall r z, digits_us r false 0 = Some z -> exists gs, gs <> [] /\ Forall digits gs /\ r = join_us gs /\ z = decval (concat gs)).
  { intros r z' K. apply digits_us_sound in K. exact K. }
  assert (P : forall r, digits_us r false 0 = Some z -> m = r -> int_literal s z).
  { intros r K E. apply G in K as (gs & A & B & C & D). exists w1, [], gs, w2.
    repeat split; auto. cbn [app]. congruence. }
  destruct m as [|c r].
  - cbn in H. discriminate.
  - destruct (c =? 45)%N eqn:E1; [|destruct (c =? 43)%N eqn:E2].
    + apply N.eqb_eq in E1. subst c. destruct (digits_us r false 0) as [x|] eqn:K; [|discriminate].
      cbn in H. injection H as H. apply G in K as (gs & A & B & C & D).
      exists w1, (t "-"), gs, w2. repeat split; auto.
      * rewrite <- C. exact Es.
      * right. split; auto. congruence.
    + apply N.eqb_eq in E2. subst c. destruct (digits_us r false 0) as [x|] eqn:K; [|discriminate].
      injection H as H. apply G in K as (gs & A & B & C & D).
      exists w1, (t "+"), gs, w2. repeat split; auto.
      * rewrite <- C. exact Es.
      * left. split; auto. congruence.
    + destruct (digits_us (c :: r) false 0) as [x|] eqn:K; [|discriminate].
      injection H as H. subst x. apply (P (c :: r)); auto.
Qed.

Lemma int_of_text_iff : forall s z, int_of_text s = Ok z <-> int_literal s z.
Proof. split; [apply int_of_text_sound | apply int_of_text_literal]. Qed.

Lemma int_of_text_err : forall s, (forall z, ~ int_literal s z) -> int_of_text s = Err ValueError.
Proof.
  intros s H. destruct (int_of_text s) as [z|e] eqn:E.
  - apply int_of_text_sound in E. elim (H z E).
  - unfold int_of_text in E.
    cbv zeta in E. lazymatch type of E with match ?x with Some _ => _ | None => _ end = _ => destruct x end; congruence.
Qed.

(** ** parse_number *)
Lemma digits_literal : forall ds, digits ds -> int_literal ds (decval ds).
Proof.
  intros ds H. exists [], [], [ds], []. cbn [app join_us concat]. rewrite !app_nil_r.
  repeat split; auto; try congruence.
Qed.

Lemma pn_loop_digits : forall ds r isf i index dot, Forall digit ds ->
  pn_loop (ds ++ r) isf i index dot =
  pn_loop r isf (i + Z.of_nat (length ds)) (match ds with [] => index | _ => i + Z.of_nat (length ds) - 1 end) dot.
Proof.
  intros ds r isf i index dot H. revert i index. induction H as [|c ds Hc H IH]; intros.
  - cbn. f_equal; lia.
  - cbn [app pn_loop]. rewrite (proj2 (is_digit_iff c) Hc), IH. f_equal.
    + cbn [length]. lia.
    + destruct ds; cbn [length]; lia.
Qed.

Lemma leading_digits_exists : forall s, exists ds, leading_digits s ds.
Proof.
  induction s as [|c s (ds & rest & E & H & K)].
  - exists [], []. cbn. auto.
  - destruct (is_digit_ascii c) eqn:F.
    + exists (c :: ds), rest. apply is_digit_iff in F. cbn. split; [congruence|]. split; auto.
    + exists [], (c :: s). apply is_digit_false in F. cbn. auto.
Qed.

Lemma pyslice_prefix : forall A (a b : list A), pyslice (a ++ b) None (Some (Z.of_nat (length a))) = a.
Proof.
  intros A a b. unfold pyslice, clampidx.
  rewrite app_length, Nat2Z.inj_add.
  replace (Z.of_nat (length a) <? 0) with false by (symmetry; apply Z.ltb_ge; lia).
  rewrite Z.min_l by lia. rewrite Nat2Z.id. cbn [skipn]. rewrite Nat.sub_0_r.
  rewrite firstn_app, Nat.sub_diag, firstn_all. cbn. apply app_nil_r.
Qed.

Lemma parse_number_int : forall s ds, leading_digits s ds -> ds <> [] ->
  parse_number s false = Ok (VInt (decval ds)).
Proof.
  intros s ds (rest & E & H & K) Hn. unfold parse_number. subst s.
  rewrite pn_loop_digits by auto.
  assert (L : (0 < length ds)%nat) by (destruct ds; [congruence|cbn; lia]).
  assert (P : pn_loop rest false (0 + Z.of_nat (length ds)) (match ds with [] => -1 | _ => 0 + Z.of_nat (length ds) - 1 end) (-1)
     = (Z.of_nat (length ds) - 1, -1)).
  { assert (Q : (match ds with [] => -1 | _ => 0 + Z.of_nat (length ds) - 1 end) = Z.of_nat (length ds) - 1)
      by (destruct ds; [congruence|lia]).
    rewrite Q. destruct rest as [|c r]; auto. cbn [pn_loop].
    apply is_digit_false in K. rewrite K. rewrite andb_false_r. reflexivity. }
  rewrite P. replace (Z.of_nat (length ds) - 1 <? 0) with false by (symmetry; apply Z.ltb_ge; lia).
  replace (Z.of_nat (length ds) - 1 + 1) with (Z.of_nat (length ds)) by lia.
  rewrite pyslice_prefix. cbn [Z.gtb Z.compare].
  rewrite (int_of_text_literal ds (decval ds)); [reflexivity|]. apply digits_literal. split; auto.
Qed.

Lemma parse_number_none : forall s, leading_digits s [] -> 
  parse_number s false = do z <- int_of_text s; Ok (VInt z).
Proof.
  intros s (rest & E & H & K). cbn in E. subst rest. unfold parse_number.
  destruct s as [|c r]; auto. cbn [pn_loop]. apply is_digit_false in K. rewrite K. reflexivity.
Qed.

Lemma ensure_int_text : forall s, s <> [] ->
  (forall z, int_literal s z -> ensure_int (VStr s) = Ok (VInt z)) /\
  ((forall z, ~ int_literal s z) -> forall ds, leading_digits s ds ->
     ensure_int (VStr s) = if (length ds =? 0)%nat then Err ValueError else Ok (VInt (decval ds))).
Proof.
  intros s Hn. assert (T : truthy (VStr s) = true) by (destruct s; [congruence|reflexivity]).
  split.
  - intros z H. unfold ensure_int. rewrite T. cbn [negb].
    rewrite (int_of_text_literal s z H). reflexivity.
  - intros H ds L. unfold ensure_int. rewrite T. cbn [negb].
    rewrite (int_of_text_err s H). cbn [bind try_].
    destruct ds as [|c ds]; cbn [length Nat.eqb].
    + rewrite parse_number_none by auto. rewrite (int_of_text_err s H). reflexivity.
    + apply parse_number_int; auto. congruence.
Qed.

(** ** float_of_text on plain decimals *)
Lemma digit_char_facts : forall c, digit c ->
  is_space_ascii c = false /\ (c =? 45)%N = false /\ (c =? 43)%N = false /\ (c =? 46)%N = false /\
  (c =? 101)%N = false /\ (c =? 69)%N = false /\ lower_ascii c = c /\ (c =? 105)%N = false /\ (c =? 110)%N = false.
Proof.
  intros c H. assert (A := digit_not_sign c (or_introl H)). unfold digit in H.
  unfold lower_ascii. destruct (65 <=? c)%N eqn:E; [apply N.leb_le in E; lia|].
  rewrite !N.eqb_neq. intuition; try lia; auto.
Qed.

Lemma break_none : forall p s, Forall (fun c => p c = false) s -> break p s = (s, None).
Proof. intros p s H. induction H as [|c s Hc H IH]; auto. cbn. rewrite Hc, IH. reflexivity. Qed.
Lemma break_some : forall p s c r, Forall (fun c => p c = false) s -> p c = true ->
  break p (s ++ c :: r) = (s, Some r).
Proof.
  intros p s c r H Hc. induction H as [|x s Hx H IH]; cbn.
  - rewrite Hc. reflexivity.
  - rewrite Hx, IH. reflexivity.
Qed.

Lemma digits_us_plain : forall ds acc, digits ds -> digits_us ds false acc = Some (decfrom acc ds).
Proof.
  intros ds acc [H1 H2]. rewrite <- (app_nil_r ds) at 1. rewrite digits_us_run by auto.
  destruct ds; [congruence|reflexivity].
Qed.

Lemma filter_digits : forall ds, Forall digit ds -> filter is_digit_ascii ds = ds.
Proof.
  intros ds H. induction H as [|c ds Hc H IH]; auto. cbn.
  rewrite (proj2 (is_digit_iff c) Hc), IH. reflexivity.
Qed.

Lemma strip_clean : forall sp s, Forall (fun c => sp c = false) s -> strip sp s = s.
Proof.
  intros sp s H. assert (G := strip_mid sp [] s [] (Forall_nil _) (Forall_nil _)).
  cbn [app] in G. rewrite app_nil_r in G. apply G.
  - intros c r E. subst s. inversion H; auto.
  - intros c r E. subst s. apply Forall_app in H as [_ K]. inversion K; auto.
Qed.

Lemma unsigned_float_plain : forall s n k,
  s <> [] -> Forall (fun c => digit c \/ c = 46%N) s -> mantissa_of s = Some (n, k) ->
  float_of_text s = Ok (decimal_float false n (- Z.of_nat k)).
Proof.
  intros s n k Hn H M. unfold float_of_text.
  assert (C : Forall (fun c => is_space_ascii c = false) s).
  { eapply Forall_impl; [|exact H]. intros c [K|K]; [apply digit_char_facts in K; tauto|subst; reflexivity]. }
  rewrite strip_clean by exact C.
  rewrite (text_head_cases s _ (fun r => unsigned_float true r) (fun r => unsigned_float false r)).
  destruct s as [|c r]; [congruence|].
  assert (Hc : digit c \/ c = 46%N) by (inversion H; auto).
  assert (F : (c =? 45)%N = false /\ (c =? 43)%N = false).
  { destruct Hc as [K|K]; [apply digit_char_facts in K; tauto|subst; auto]. }
  destruct F as [F1 F2]. rewrite F1, F2.
  unfold unsigned_float.
  assert (G : forall w, (105 =? hd 0 w)%N = true \/ (110 =? hd 0 w)%N = true -> 
     text_eqb (map lower_ascii (c :: r)) w = false).
  { intros w K. apply text_eqb_neq. intro E. cbn [map] in E. subst w. cbn [hd] in K.
    rewrite !N.eqb_eq in K.
    destruct Hc as [D|D].
    - apply digit_char_facts in D as (_&_&_&_&_&_&L&I1&I2). rewrite L in K. apply N.eqb_neq in I1, I2. lia.
    - subst c. cbn in K. lia. }
  rewrite (G (t "inf")), (G (t "infinity")), (G (t "nan")) by (cbn; auto).
  cbn [orb].
  rewrite break_none.
  - rewrite M. reflexivity.
  - eapply Forall_impl; [|exact H]. intros x [K|K].
    + apply digit_char_facts in K. destruct K as (_&_&_&_&A&B&_). rewrite A, B. reflexivity.
    + subst; reflexivity.
Qed.

Lemma float_of_text_decimal : forall ip fp, digits ip -> digits fp ->
  float_of_text (ip ++ 46%N :: fp) = Ok (decimal_float false (decval (ip ++ fp)) (- Z.of_nat (length fp))).
Proof.
  intros ip fp Hi Hf. apply unsigned_float_plain.
  - destruct ip; cbn; congruence.
  - destruct Hi as [_ Hi], Hf as [_ Hf]. apply Forall_app; split; [|constructor; auto].
    + eapply Forall_impl; [|exact Hi]; auto.
    + eapply Forall_impl; [|exact Hf]; auto.
  - unfold mantissa_of. rewrite break_some.
    + rewrite (digits_us_plain ip) by auto.
      destruct Hi as [Hi1 Hi2], Hf as [Hf1 Hf2].
      destruct ip as [|c ip]; [congruence|]. destruct fp as [|c' fp]; [congruence|].
      rewrite digits_us_plain by (split; auto). rewrite filter_digits by auto.
      rewrite <- decfrom_app. reflexivity.
    + destruct Hi as [_ Hi]. eapply Forall_impl; [|exact Hi]. intros c K.
      rewrite N.eqb_sym. apply digit_char_facts in K. tauto.
    + reflexivity.
Qed.

Lemma float_of_text_digits : forall ip, digits ip ->
  float_of_text ip = Ok (decimal_float false (decval ip) 0).
Proof.
  intros ip Hi. apply (unsigned_float_plain ip (decval ip) 0%nat).
  - apply Hi.
  - eapply Forall_impl; [|exact (proj2 Hi)]; auto.
  - unfold mantissa_of. rewrite break_none.
    + rewrite digits_us_plain by auto. reflexivity.
    + destruct Hi as [_ Hi]. eapply Forall_impl; [|exact Hi]. intros c K.
      rewrite N.eqb_sym. apply digit_char_facts in K. tauto.
Qed.

(** ** parse_number on decimals *)
Lemma pn_stop : forall r i index dot, 
  match r with [] => True | c :: _ => ~ digit c end -> 0 <= dot -> pn_loop r true i index dot = (index, dot).
Proof.
  intros [|c r] i index dot H Hd; auto. cbn [pn_loop]. apply is_digit_false in H. rewrite H.
  replace (dot <? 0) with false by (symmetry; apply Z.ltb_ge; lia).
  rewrite andb_false_r. reflexivity.
Qed.

Lemma parse_number_decimal : forall ip fp rest, digits ip -> Forall digit fp ->
  match rest with [] => True | c :: _ => ~ digit c end ->
  parse_number (ip ++ 46%N :: fp ++ rest) true =
  Ok (VFloat (decimal_float false (decval (ip ++ fp)) (- Z.of_nat (length fp)))).
Proof.
  intros ip fp rest Hi Hf Hr. unfold parse_number.
  rewrite pn_loop_digits by apply Hi.
  assert (L : (0 < length ip)%nat) by (destruct Hi as [Hi _]; destruct ip; [congruence|cbn; lia]).
  replace (match ip with [] => -1 | _ => 0 + Z.of_nat (length ip) - 1 end) with (Z.of_nat (length ip) - 1)
    by (destruct ip; [cbn in L; lia|lia]).
  cbn [pn_loop]. change (is_digit_ascii 46) with false.
  replace (Z.of_nat (length ip) - 1 >=? 0) with true by (symmetry; rewrite Z.geb_leb; apply Z.leb_le; lia).
  change (46 =? 46)%N with true. cbn [andb Z.ltb Z.compare].
  rewrite pn_loop_digits by auto. rewrite pn_stop by (auto; lia).
  destruct fp as [|c fp].
  - replace (Z.of_nat (length ip) - 1 <? 0) with false by (symmetry; apply Z.ltb_ge; lia).
    replace (Z.of_nat (length ip) - 1 + 1) with (Z.of_nat (length ip)) by lia.
    rewrite pyslice_prefix.
    replace (0 + Z.of_nat (length ip) >? 0) with true by (symmetry; rewrite Z.gtb_ltb; apply Z.ltb_lt; lia).
    rewrite float_of_text_digits by auto. rewrite app_nil_r. reflexivity.
  - assert (Hf' : digits (c :: fp)) by (split; [congruence|auto]).
    set (f := c :: fp) in *. clearbody f.
    match goal with |- context [?a <? 0] => replace (a <? 0) with false by (symmetry; apply Z.ltb_ge; lia) end.
    replace (0 + Z.of_nat (length ip) >? 0) with true by (symmetry; rewrite Z.gtb_ltb; apply Z.ltb_lt; lia).
    replace (0 + Z.of_nat (length ip) + 1 + Z.of_nat (length f) - 1 + 1) with (Z.of_nat (length (ip ++ 46%N :: f)))
      by (rewrite app_length; cbn [length]; lia).
    replace (ip ++ 46%N :: f ++ rest) with ((ip ++ 46%N :: f) ++ rest) by (rewrite <- app_assoc; reflexivity).
    rewrite pyslice_prefix. rewrite float_of_text_decimal by auto. reflexivity.
Qed.

(** ** parse_value *)
Definition val_of_lit (l : lit) : val :=
  match l with
  | LInt z => VInt z
  | LText s => VStr s
  | LBool b => VBool b
  | LNull => VNone
  | LDec n k => VFloat (decimal_float false n (- Z.of_nat k))
  end.

Section ParseValue.
Variables (sp isdigit : N -> bool) (lower : text -> text).
Hypothesis Hdigit : forall c, (c < 128)%N -> (isdigit c = true <-> digit c).
Hypothesis Hsp : forall c, (c < 128)%N -> (sp c = true <-> white c).
Hypothesis Hlower : forall s, Forall (fun c => c < 128)%N s -> lower s = map lower_letter s.

Lemma all_digits_iff : forall s, Forall (fun c => c < 128)%N s -> (all_digits isdigit s = true <-> digits s).
Proof.
  intros s A. unfold all_digits, digits. destruct s as [|c s]; [split; [discriminate|intros [K _]; congruence]|].
  rewrite forallb_forall, Forall_forall. rewrite Forall_forall in A.
  split.
  - intro H. split; [congruence|]. intros x K. apply Hdigit; auto.
  - intros [_ H] x K. apply Hdigit; auto.
Qed.
Lemma all_digits_false : forall s, Forall (fun c => c < 128)%N s -> ~ digits s -> all_digits isdigit s = false.
Proof.
  intros s A H. apply all_digits_iff in A. destruct (all_digits isdigit s); auto. tauto.
Qed.

Lemma split_on_none : forall sep s, ~ In sep s -> split_on sep s = [s].
Proof.
  intros sep s. induction s as [|c s IH]; intro H; auto. cbn.
  destruct (c =? sep)%N eqn:E; [apply N.eqb_eq in E; subst; elim H; left; auto|].
  rewrite IH; auto. intro K; apply H; right; auto.
Qed.
Lemma split_on_one : forall sep a b, ~ In sep a -> split_on sep (a ++ sep :: b) = a :: split_on sep b.
Proof.
  intros sep a b. induction a as [|c a IH]; intro H; cbn.
  - rewrite N.eqb_refl. reflexivity.
  - destruct (c =? sep)%N eqn:E; [apply N.eqb_eq in E; subst; elim H; left; auto|].
    rewrite IH; auto. intro K; apply H; right; auto.
Qed.

Lemma digit_lt : forall c, digit c -> (c < 128)%N.
Proof. unfold digit. lia. Qed.
Lemma digits_no_dot : forall ds, Forall digit ds -> ~ In 46%N ds.
Proof. intros ds H K. rewrite Forall_forall in H. apply H in K. unfold digit in K. lia. Qed.

(** the body of parse_value on an already stripped, non-empty text *)
Lemma parse_value_stripped : forall s v,
  Forall (fun c => c < 128)%N s -> denotes s v ->
  (forall c r, s = c :: r -> sp c = false) -> (forall c r, s = r ++ [c] -> sp c = false) ->
  forall w1 w2, Forall (fun c => sp c = true) w1 -> Forall (fun c => sp c = true) w2 ->
  parse_value sp isdigit lower (w1 ++ s ++ w2) = Ok (val_of_lit v).
Proof.
  intros s v A D Hf Hl w1 w2 W1 W2. unfold parse_value. rewrite strip_mid by auto.
  assert (NQ : forall s0 c, ~ (c = 39 \/ c = 34)%N -> 
     (2 <=? Z.of_nat (@length N s0)) && is_q c && is_q (last s0 0%N) = false).
  { intros s0 c K. replace (is_q c) with false. rewrite andb_false_r. reflexivity.
    unfold is_q. symmetry. apply orb_false_iff. rewrite !N.eqb_neq. tauto. }
  assert (ND : forall word, spells s word -> Forall (fun c => ~ digit c) word -> word <> [] -> hd 0%N word <> 45%N -> 
     hd 0%N word <> 39%N -> hd 0%N word <> 34%N ->
     exists c r, s = c :: r /\ ~ (c = 39 \/ c = 34)%N /\ (c =? 45)%N = false /\ ~ digits s /\ lower s = word).
  { intros word E K1 K2 K3 K4 K5. unfold spells in E. destruct s as [|c r]; [cbn in E; congruence|].
    exists c, r. split; auto.
    assert (LL : forall x, (lower_letter x = x) \/ (65 <= x <= 90)%N).
    { intro x. unfold lower_letter. destruct (65 <=? x)%N eqn:E1; auto.
      destruct (x <=? 90)%N eqn:E2; auto. apply N.leb_le in E1, E2. right; lia. }
    subst word. cbn [map hd] in *. destruct (LL c) as [X|X].
    - rewrite X in *. split; [intuition congruence|]. split; [apply N.eqb_neq; auto|]. split.
      + intros [_ Q]. inversion Q; subst. inversion K1; subst. tauto.
      + rewrite Hlower by auto. cbn [map]. rewrite X. reflexivity.
    - split; [lia|]. split; [apply N.eqb_neq; lia|]. split.
      + intros [_ Q]. inversion Q as [|? ? Q1 _]. unfold digit in Q1. lia.
      + rewrite Hlower by auto. reflexivity. }
  assert (T : forall word v', spells s word -> (word = t "true" /\ v' = VBool true \/ word = t "false" /\ v' = VBool false \/ word = t "null" /\ v' = VNone) ->
    match s with
    | [] => Ok (VStr [])
    | c0 :: rest =>
      if (2 <=? Z.of_nat (length s)) && is_q c0 && is_q (last s 0%N) then Ok (VStr (pyslice s (Some 1) (Some (-1))))
      else if all_digits isdigit s || ((c0 =? 45)%N && all_digits isdigit rest)
      then do z <- int_of_text s; Ok (VInt z)
      else if text_eqb (lower s) (t "true") then Ok (VBool true)
      else if text_eqb (lower s) (t "false") then Ok (VBool false)
      else if text_eqb (lower s) (t "null") then Ok VNone
      else match split_on 46 s with
      | [a; b] =>
        if (all_digits isdigit a || ((c0 =? 45)%N && all_digits isdigit [])) && all_digits isdigit b
        then do f <- float_of_text s; Ok (VFloat f) else Ok (VStr s)
      | _ => Ok (VStr s)
      end
    end = Ok v').
  { intros word v' E HV.
    destruct (ND word E) as (c & r & Es & N1 & N2 & N3 & N4);
      try (destruct HV as [[-> _]|[[-> _]|[-> _]]]; cbn; try congruence; repeat constructor; unfold digit; lia).
    rewrite N4. rewrite (all_digits_false s A N3). destruct s as [|c' r']; [congruence|].
    injection Es as -> ->. rewrite NQ by auto. rewrite N2. cbn [orb andb].
    destruct HV as [[-> ->]|[[-> ->]|[-> ->]]]; reflexivity. }
  cbv zeta.
  destruct D as [|q q' s Hq Hq'|ds Hd|ds Hd|s E|s E|s E|ip fp Hi Hp].
  - reflexivity.
  - assert (Q : is_q q = true) by (unfold is_q; destruct Hq; subst; reflexivity).
    assert (Q' : is_q q' = true) by (unfold is_q; destruct Hq'; subst; reflexivity).
    rewrite Q. replace (last (q :: s ++ [q']) 0%N) with q' by (symmetry; apply (last_last (q :: s))).
    rewrite Q'. replace (2 <=? Z.of_nat (length (q :: s ++ [q']))) with true
      by (symmetry; apply Z.leb_le; cbn [length]; rewrite app_length; cbn; lia).
    cbn [andb val_of_lit]. f_equal. f_equal. unfold pyslice, clampidx.
    cbn [length]. rewrite app_length. cbn [length].
    replace (Z.to_nat (if 1 <? 0 then _ else _)) with 1%nat by (cbn; lia).
    replace (Z.to_nat (if -1 <? 0 then _ else _)) with (S (length s)) by (cbn [Z.ltb Z.compare]; lia).
    cbn [skipn Nat.sub]. rewrite Nat.sub_0_r, firstn_app, Nat.sub_diag, firstn_all. cbn. apply app_nil_r.
  - destruct ds as [|c r] eqn:Ed; [destruct Hd; congruence|]. rewrite <- Ed in *.
    rewrite (proj2 (all_digits_iff ds A) Hd). cbn [orb].
    assert (Hc : digit c) by (destruct Hd as [_ Hd]; rewrite Ed in Hd; inversion Hd; auto).
    rewrite NQ by (unfold digit in Hc; lia).
    rewrite (int_of_text_literal ds (decval ds)) by (apply digits_literal; auto). reflexivity.
  - rewrite NQ by lia.
    assert (A' : Forall (fun c => c < 128)%N ds) by (inversion A; auto).
    rewrite (proj2 (all_digits_iff ds A') Hd). change (45 =? 45)%N with true. cbn [andb].
    rewrite orb_true_r.
    rewrite (int_of_text_literal (45%N :: ds) (- decval ds)); [reflexivity|].
    exists [], (t "-"), [ds], []. cbn [join_us concat]. rewrite !app_nil_r. repeat split; auto; congruence.
  - apply (T _ _ E). auto.
  - apply (T _ _ E). auto.
  - apply (T _ _ E). auto.
  - assert (Dot : In 46%N (ip ++ 46%N :: fp)) by (apply in_or_app; right; left; auto).
    assert (N3 : ~ digits (ip ++ 46%N :: fp)).
    { intros [_ Q]. apply (digits_no_dot _ Q Dot). }
    assert (A1 : Forall (fun c => c < 128)%N ip) by (apply Forall_app in A; tauto).
    assert (A2 : Forall (fun c => c < 128)%N fp) by (apply Forall_app in A as [_ Q]; inversion Q; auto).
    assert (LW : forall w, Forall (fun c => c <> 46%N) w -> text_eqb (lower (ip ++ 46%N :: fp)) w = false).
    { intros w K. apply text_eqb_neq. rewrite Hlower by auto. intro E. subst w.
      rewrite Forall_forall in K. apply (K 46%N); auto.
      apply in_map_iff. exists 46%N. split; auto. }
    destruct (ip ++ 46%N :: fp) as [|c r] eqn:Ed; [destruct ip; discriminate|]. rewrite <- Ed in *.
    assert (Hc : digit c).
    { destruct ip as [|x ip]; [destruct Hi; congruence|]. cbn in Ed. injection Ed as -> _.
      destruct Hi as [_ Hi]; inversion Hi; auto. }
    rewrite NQ by (unfold digit in Hc; lia).
    rewrite (all_digits_false _ A N3).
    replace (c =? 45)%N with false by (symmetry; apply N.eqb_neq; unfold digit in Hc; lia). cbn [orb andb].
    rewrite !LW by (repeat constructor; discriminate).
    rewrite split_on_one by (apply digits_no_dot; apply Hi).
    rewrite split_on_none by (apply digits_no_dot; apply Hp).
    rewrite (proj2 (all_digits_iff ip A1) Hi), (proj2 (all_digits_iff fp A2) Hp). cbn [orb andb].
    rewrite float_of_text_decimal by auto. reflexivity.
Qed.

Fixpoint join_with (sep : N) (l : list text) : text :=
  match l with
  | [] => []
  | [a] => a
  | a :: l' => a ++ sep :: join_with sep l'
  end.
Lemma split_on_join : forall sep s, join_with sep (split_on sep s) = s.
Proof.
  intros sep. induction s as [|c s IH]; auto. cbn [split_on].
  assert (N : split_on sep s <> []).
  { destruct s as [|x s]; cbn; [congruence|]. destruct (x =? sep)%N; [congruence|].
    destruct (split_on sep s); congruence. }
  destruct (split_on sep s) as [|g gs]; [congruence|].
  destruct (c =? sep)%N eqn:E.
  - apply N.eqb_eq in E. subst c. cbn [join_with app]. f_equal. exact IH.
  - cbn [join_with] in *. destruct gs; cbn [app]; congruence.
Qed.

(** texts that denote nothing special denote themselves; this includes signed decimals *)
Lemma parse_value_other : forall s, s <> [] ->
  Forall (fun c => c < 128)%N s -> (forall v, ~ denotes s v) ->
  (forall c r, s = c :: r -> sp c = false) -> (forall c r, s = r ++ [c] -> sp c = false) ->
  forall w1 w2, Forall (fun c => sp c = true) w1 -> Forall (fun c => sp c = true) w2 ->
  parse_value sp isdigit lower (w1 ++ s ++ w2) = Ok (VStr s).
Proof.
  intros s Hn A D Hf Hl w1 w2 W1 W2. unfold parse_value. rewrite strip_mid by auto. cbv zeta.
  destruct s as [|c r] eqn:Es; [congruence|]. rewrite <- Es in *.
  destruct ((2 <=? Z.of_nat (length s)) && is_q c && is_q (last s 0%N)) eqn:E1.
  { exfalso. apply andb_true_iff in E1 as [E1 E3]. apply andb_true_iff in E1 as [E1 E2].
    apply Z.leb_le in E1.
    assert (exists m q', s = c :: m ++ [q']) as (m & q' & Em).
    { destruct (@exists_last _ r) as (m & q' & Em).
      - intro K. rewrite Es, K in E1. cbn in E1. lia.
      - exists m, q'. congruence. }
    assert (L : last s 0%N = q') by (rewrite Em; apply (last_last (c :: m))).
    rewrite L in E3. rewrite Em in D. apply (D (LText m)). constructor; [unfold is_q in E2|unfold is_q in E3];
      rewrite orb_true_iff, !N.eqb_eq in *; tauto. }
  destruct (all_digits isdigit s) eqn:E2.
  { exfalso. apply all_digits_iff in E2; auto. apply (D (LInt (decval s))). constructor; auto. }
  destruct ((c =? 45)%N && all_digits isdigit r) eqn:E3.
  { exfalso. apply andb_true_iff in E3 as [E3 E4]. apply N.eqb_eq in E3. subst c.
    apply all_digits_iff in E4; [|rewrite Es in A; inversion A; auto].
    apply (D (LInt (- decval r))). rewrite Es. constructor; auto. }
  cbn [orb]. rewrite Hlower by auto.
  destruct (text_eqb (map lower_letter s) (t "true")) eqn:E4.
  { exfalso. apply text_eqb_spec in E4. apply (D (LBool true)). constructor; auto. }
  destruct (text_eqb (map lower_letter s) (t "false")) eqn:E5.
  { exfalso. apply text_eqb_spec in E5. apply (D (LBool false)). constructor; auto. }
  destruct (text_eqb (map lower_letter s) (t "null")) eqn:E6.
  { exfalso. apply text_eqb_spec in E6. apply (D LNull). constructor; auto. }
  destruct (split_on 46 s) as [|a [|b [|? ?]]] eqn:E7; auto.
  change (all_digits isdigit []) with false. rewrite andb_false_r, orb_false_r.
  destruct (all_digits isdigit a && all_digits isdigit b) eqn:E8; auto.
  exfalso. apply andb_true_iff in E8 as [Ha Hb].
  assert (J : s = a ++ 46%N :: b).
  { rewrite <- (split_on_join 46 s), E7. reflexivity. }
  assert (A' := A). rewrite J in A'. apply Forall_app in A' as [A1 A2]. assert (A3 : Forall (fun c => c < 128)%N b) by (inversion A2; auto).
  apply all_digits_iff in Ha; auto. apply all_digits_iff in Hb; auto.
  apply (D (LDec (decval (a ++ b)) (length b))). rewrite J. constructor; auto.
Qed.
End ParseValue.

(** Lemmas for Literal_Props.v *)
From Coq Require Import Lia SpecFloat.
From Verif Require Import Base PyVal Literal_Model Literal_Spec.
Local Open Scope N_scope.

(* ---- numerals ---- *)
Definition bpow (b : N) (n : nat) : N := b ^ N.of_nat n.
Lemma bpow_S b n : bpow b (S n) = b * bpow b n.
Proof. unfold bpow. rewrite Nnat.Nat2N.inj_succ, N.pow_succ_r'. reflexivity. Qed.
Lemma numeral_cons (d : N -> N -> Prop) b c w0 s w : d c w0 -> numeral d b s w -> numeral d b (c :: s) (w0 * bpow b (length s) + w).
Proof.
  intros D H. induction H as [|s v c' w' H IH D'].
  - assert (G : numeral d b ([] ++ [c]) (b * 0 + w0)) by (constructor; [constructor|exact D]).
    cbn [app length] in *. replace (w0 * bpow b 0 + 0) with (b * 0 + w0) by (unfold bpow; cbn; lia). exact G.
  - change (c :: s ++ [c']) with ((c :: s) ++ [c']). rewrite app_length, Nat.add_comm. cbn [length Nat.add].
    rewrite bpow_S. replace (w0 * (b * bpow b (length s)) + (b * v + w')) with (b * (w0 * bpow b (length s) + v) + w') by lia.
    constructor; assumption.
Qed.
Lemma numeral_inv (d : N -> N -> Prop) b : forall s v, numeral d b s v ->
  match s with
  | [] => v = 0
  | c :: r => exists w0 w, d c w0 /\ numeral d b r w /\ v = w0 * bpow b (length r) + w
  end.
Proof.
  intros s v H. induction H as [|s v c w H IH D]; [reflexivity|].
  destruct s as [|c0 s]; cbn [app].
  - subst v. exists w, 0. split; [exact D|]. split; [constructor|]. unfold bpow. cbn. lia.
  - destruct IH as (w0 & w1 & D0 & N1 & ->). exists w0, (b * w1 + w). split; [exact D0|]. split; [constructor; assumption|].
    rewrite app_length, Nat.add_comm. cbn [length Nat.add]. rewrite bpow_S. lia.
Qed.

Lemma hexval_spec c v : hexval c = Some v <-> hex_digit c v.
Proof.
  unfold hexval. split.
  - destruct (N.leb_spec 48 c), (N.leb_spec c 57); cbn [andb];
      [intros [= <-]; replace c with (48 + (c - 48)) at 1 by lia; constructor; lia| | |];
      (destruct (N.leb_spec 97 c), (N.leb_spec c 102); cbn [andb];
        [intros [= <-]; replace c with (87 + (c - 87)) at 1 by lia; apply Hex_lower; lia| | |];
      (destruct (N.leb_spec 65 c), (N.leb_spec c 70); cbn [andb];
        [intros [= <-]; replace c with (55 + (c - 55)) at 1 by lia; apply Hex_upper; lia| | |]; discriminate)).
  - intros H. destruct H as [v H|v H|v H].
    + assert (48 <=? 48 + v = true) as -> by (apply N.leb_le; lia). assert (48 + v <=? 57 = true) as -> by (apply N.leb_le; lia).
      cbn [andb]. f_equal. lia.
    + assert (87 + v <=? 57 = false) as -> by (apply N.leb_gt; lia). rewrite Bool.andb_false_r.
      assert (97 <=? 87 + v = true) as -> by (apply N.leb_le; lia). assert (87 + v <=? 102 = true) as -> by (apply N.leb_le; lia).
      cbn [andb]. f_equal. lia.
    + assert (55 + v <=? 57 = false) as -> by (apply N.leb_gt; lia). rewrite Bool.andb_false_r.
      assert (97 <=? 55 + v = false) as -> by (apply N.leb_gt; lia). cbn [andb].
      assert (65 <=? 55 + v = true) as -> by (apply N.leb_le; lia). assert (55 + v <=? 70 = true) as -> by (apply N.leb_le; lia).
      cbn [andb]. f_equal. lia.
Qed.
Lemma octal_spec c v : octal c = Some v <-> oct_digit c v.
Proof.
  unfold octal, oct_digit. split.
  - destruct (N.leb_spec 48 c), (N.leb_spec c 55); cbn [andb]; try discriminate. intros [= <-]. lia.
  - intros [H ->]. assert (48 <=? 48 + v = true) as -> by (apply N.leb_le; lia).
    assert (48 + v <=? 55 = true) as -> by (apply N.leb_le; lia). cbn [andb]. f_equal. lia.
Qed.

Lemma hexdigits_sound n : forall acc s v r, hexdigits n acc s = Some (v, r) ->
  exists ds w, s = ds ++ r /\ length ds = n /\ numeral hex_digit 16 ds w /\ v = acc * bpow 16 n + w.
Proof.
  induction n as [|n IH]; intros acc s v r H; cbn [hexdigits] in H.
  - injection H as <- <-. exists [], 0. repeat split; [constructor|]. unfold bpow. cbn. lia.
  - destruct s as [|c s]; [discriminate|]. destruct (hexval c) as [d|] eqn:E; [|discriminate].
    apply IH in H. destruct H as (ds & w & -> & L & Nm & ->). apply hexval_spec in E.
    exists (c :: ds), (d * bpow 16 (length ds) + w). split; [reflexivity|]. split; [cbn; congruence|].
    split; [apply numeral_cons; assumption|]. rewrite bpow_S, L. lia.
Qed.
Lemma hexdigits_complete : forall ds w acc r, numeral hex_digit 16 ds w ->
  hexdigits (length ds) acc (ds ++ r) = Some (acc * bpow 16 (length ds) + w, r).
Proof.
  induction ds as [|c ds IH]; intros w acc r H; apply numeral_inv in H; cbn [length hexdigits app].
  - subst w. unfold bpow. cbn. do 2 f_equal. lia.
  - destruct H as (w0 & w1 & D & N1 & ->). apply hexval_spec in D. rewrite D, (IH w1 _ r N1), bpow_S. do 2 f_equal. lia.
Qed.
Definition no_octal (s : text) : Prop := forall c w r, s = c :: r -> ~ oct_digit c w.
Lemma octdigits_sound n : forall acc s, exists ds w r,
  octdigits n acc s = (acc * bpow 8 (length ds) + w, r) /\ s = ds ++ r /\ (length ds <= n)%nat /\
  numeral oct_digit 8 ds w /\ (length ds = n \/ no_octal r).
Proof.
  induction n as [|n IH]; intros acc s; cbn [octdigits].
  - exists [], 0, s. unfold bpow. cbn [length N.of_nat]. rewrite N.pow_0_r, N.mul_1_r, N.add_0_r.
    repeat split; auto. constructor.
  - destruct s as [|c s].
    + exists [], 0, []. unfold bpow. cbn [length N.of_nat]. rewrite N.pow_0_r, N.mul_1_r, N.add_0_r.
      repeat split; auto; [cbn; lia|constructor|]. right. intros c w r [=].
    + destruct (octal c) as [d|] eqn:E.
      * destruct (IH (8 * acc + d) s) as (ds & w & r & -> & -> & L & Nm & T). apply octal_spec in E.
        exists (c :: ds), (d * bpow 8 (length ds) + w), r. split; [f_equal; cbn [length]; rewrite bpow_S; lia|].
        split; [reflexivity|]. split; [cbn; lia|]. split; [apply numeral_cons; assumption|].
        destruct T as [T|T]; [left; cbn; lia|right; exact T].
      * exists [], 0, (c :: s). unfold bpow. cbn [length N.of_nat]. rewrite N.pow_0_r, N.mul_1_r, N.add_0_r.
        repeat split; auto; [lia|constructor|]. right. intros c' w r [= <- <-] D. apply octal_spec in D. congruence.
Qed.
Lemma octdigits_complete n : forall ds w acc r, numeral oct_digit 8 ds w -> (length ds <= n)%nat ->
  (length ds = n \/ no_octal r) -> octdigits n acc (ds ++ r) = (acc * bpow 8 (length ds) + w, r).
Proof.
  induction n as [|n IH]; intros ds w acc r Nm L T; cbn [octdigits].
  - destruct ds; [|cbn in L; lia]. apply numeral_inv in Nm. subst w. unfold bpow. cbn. f_equal. lia.
  - destruct ds as [|c ds]; cbn [app].
    + apply numeral_inv in Nm. subst w. unfold bpow. cbn [length N.of_nat]. rewrite N.pow_0_r, N.mul_1_r, N.add_0_r.
      destruct r as [|c r]; [reflexivity|]. destruct (octal c) as [d|] eqn:E; [|reflexivity].
      apply octal_spec in E. destruct T as [T|T]; [discriminate|]. destruct (T c d r eq_refl E).
    + apply numeral_inv in Nm. destruct Nm as (w0 & w1 & D & N1 & ->). apply octal_spec in D. rewrite D.
      cbn [length] in *. rewrite (IH ds w1 _ r N1); [rewrite bpow_S; f_equal; lia|lia|].
      destruct T as [T|T]; [left; lia|right; exact T].
Qed.
Lemma to_brace_sound s : forall a b, to_brace s = Some (a, b) -> s = a ++ 125 :: b /\ ~ In 125 a.
Proof.
  induction s as [|c s IH]; intros a b H; [discriminate|].
  destruct (N.eq_dec c 125) as [->|NE].
  - cbn in H. injection H as <- <-. split; [reflexivity|intros []].
  - assert (H' : match to_brace s with None => None | Some (a, b) => Some (c :: a, b) end = Some (a, b)).
    { rewrite <- H. cbn [to_brace]. destruct c as [|p]; [reflexivity|].
      do 7 (destruct p as [p|p|]; try reflexivity; try congruence). }
    destruct (to_brace s) as [[a' b']|]; [|discriminate]. injection H' as <- <-.
    destruct (IH _ _ eq_refl) as [-> NI]. split; [reflexivity|]. intros [G|G]; [congruence|contradiction].
Qed.
Lemma to_brace_complete a : forall b, ~ In 125 a -> to_brace (a ++ 125 :: b) = Some (a, b).
Proof.
  induction a as [|c a IH]; intros b H; [reflexivity|].
  assert (NE : c <> 125) by (intros ->; apply H; left; reflexivity).
  assert (Q : to_brace ((c :: a) ++ 125 :: b) = match to_brace (a ++ 125 :: b) with None => None | Some (a, b) => Some (c :: a, b) end).
  { cbn [app to_brace]. destruct c as [|p]; [reflexivity|].
    do 7 (destruct p as [p|p|]; try reflexivity; try congruence). }
  rewrite Q, IH; [reflexivity|]. intros G. apply H. right. exact G.
Qed.

Section Decode.
Variable uname : list N -> option N.
Notation unescape := (unescape uname).
Notation denotes := (denotes uname).
Definition ascii (s : text) : Prop := forall c, In c s -> c < 128.

Lemma ascii_app a b : ascii (a ++ b) -> ascii a /\ ascii b.
Proof. intros H. split; intros c I; apply H, in_or_app; auto. Qed.
Lemma ascii_cons a b : ascii (a :: b) -> a < 128 /\ ascii b.
Proof. intros H. split; [apply H; left; reflexivity|intros c I; apply H; right; exact I]. Qed.

Lemma simple_cases e : In e (map fst simple_escapes) -> exists d, In (e, d) simple_escapes /\ forall fuel r,
  unescape (S fuel) (92 :: e :: r) = match unescape fuel r with None => None | Some v => Some (d :: v) end.
Proof.
  cbn [map fst simple_escapes In].
  intros H. decompose [or] H; try contradiction; subst e; eexists; (split; [|intros fuel r; cbn [Literal_Model.unescape]; reflexivity]);
    cbn [In]; tauto.
Qed.
Lemma simple_fun e d d' : In (e, d) simple_escapes -> In (e, d') simple_escapes -> d = d'.
Proof. cbn [In simple_escapes]. intros H G. decompose [or] H; try contradiction; decompose [or] G; try contradiction; congruence. Qed.

Ltac ne H e := rewrite (proj2 (N.eqb_neq e _)) by (intros ->; apply H; cbn [In map fst simple_escapes]; tauto).
(** One step on an escape that is not simple. *)
Lemma unescape_other fuel e r : e <> 10 -> ~ In e (map fst simple_escapes) ->
  unescape (S fuel) (92 :: e :: r) =
  let next out r := match unescape fuel r with None => None | Some v => Some (out ++ v) end in
  match octal e with
  | Some d => let (v, r) := octdigits 2 d r in next [v] r
  | None =>
    if (e =? 120) || (e =? 117) || (e =? 85) then
      match hexdigits (if e =? 120 then 2%nat else if e =? 117 then 4%nat else 8%nat) 0 r with
      | None => None
      | Some (v, r) => if v <=? 1114111 then next [v] r else None
      end
    else if e =? 78 then
      match r with
      | 123 :: r => match to_brace r with
                    | Some ((_ :: _) as nm, r) => match uname nm with Some v => next [v] r | None => None end
                    | _ => None
                    end
      | _ => None
      end
    else next [92; e] r
  end.
Proof.
  intros H10 H. cbn [Literal_Model.unescape]. change (negb (92 =? 92)) with false. cbn iota.
  rewrite (proj2 (N.eqb_neq e 10)) by exact H10. ne H e. ne H e. ne H e. cbn [orb]. ne H e. ne H e. ne H e. ne H e. ne H e. ne H e. ne H e.
  reflexivity.
Qed.

Lemma unescape_sound fuel : forall s v, ascii s -> (length s <= fuel)%nat -> unescape fuel s = Some v -> denotes s v.
Proof.
  induction fuel as [|fuel IH]; intros s v A L H.
  - destruct s; [|cbn in L; lia]. cbn in H. injection H as <-. constructor.
  - destruct s as [|c r]; [cbn in H; injection H as <-; constructor|]. apply ascii_cons in A. destruct A as [Ac A].
    cbn [length] in L. destruct (N.eq_dec c 92) as [->|NE].
    2: { cbn [Literal_Model.unescape] in H. rewrite (proj2 (N.eqb_neq c 92) NE) in H. cbn [negb] in H.
         destruct (unescape fuel r) as [w|] eqn:E; [|discriminate]. injection H as <-. apply D_plain; [exact NE|].
         apply IH; auto. lia. }
    destruct r as [|e r]; [discriminate H|]. apply ascii_cons in A. destruct A as [Ae A]. cbn [length] in L.
    destruct (N.eq_dec e 10) as [->|N10].
    { cbn [Literal_Model.unescape] in H. change (negb (92 =? 92)) with false in H. change (10 =? 10) with true in H. cbn iota in H.
      destruct (unescape fuel r) as [w|] eqn:E; [|discriminate]. injection H as <-. apply D_newline. apply IH; auto. lia. }
    destruct (in_dec N.eq_dec e (map fst simple_escapes)) as [S|S].
    { destruct (simple_cases e S) as (d & I & Q). rewrite Q in H.
      destruct (unescape fuel r) as [w|] eqn:E; [|discriminate]. injection H as <-. apply (D_simple _ e d); [exact I|].
      apply IH; auto. lia. }
    rewrite (unescape_other fuel e r N10 S) in H. cbv zeta in H.
    destruct (octal e) as [d|] eqn:O.
    { destruct (octdigits_sound 2 d r) as (ds & w & r' & Q & -> & Ld & Nm & T). rewrite Q in H.
      destruct (unescape fuel r') as [w'|] eqn:E; [|discriminate]. injection H as <-. apply octal_spec in O.
      change (92 :: e :: ds ++ r') with (92 :: (e :: ds) ++ r'). cbn [app].
      apply (D_octal _ (e :: ds)).
      - cbn [length]. lia.
      - apply numeral_cons; assumption.
      - destruct T as [T|T]; [left; cbn [length]; lia|right; exact T].
      - apply IH; auto; [|rewrite app_length in L; lia]. apply ascii_app in A. apply A. }
    destruct ((e =? 120) || (e =? 117) || (e =? 85)) eqn:X.
    { set (k := if e =? 120 then 2%nat else if e =? 117 then 4%nat else 8%nat) in *.
      destruct (hexdigits k 0 r) as [[n r']|] eqn:E; [|discriminate].
      destruct (N.leb_spec n 1114111) as [Ln|Ln]; [|discriminate].
      destruct (hexdigits_sound k 0 r n r' E) as (ds & w & -> & Ld & Nm & ->). rewrite N.mul_0_l, N.add_0_l in *.
      destruct (unescape fuel r') as [w'|] eqn:E'; [|discriminate]. injection H as <-. cbn [app].
      apply (D_hex _ e k); auto.
      - unfold k. destruct (N.eqb_spec e 120); [subst; left; reflexivity|].
        destruct (N.eqb_spec e 117); [subst; right; left; reflexivity|].
        destruct (N.eqb_spec e 85); [subst; right; right; left; reflexivity|discriminate].
      - apply IH; auto; [|rewrite app_length in L; lia]. apply ascii_app in A. apply A. }
    destruct (N.eqb_spec e 78) as [->|N78].
    { assert (K : exists nm r', r = 123 :: nm ++ 125 :: r' /\ nm <> [] /\ ~ In 125 nm /\
        exists n w, uname nm = Some n /\ unescape fuel r' = Some w /\ v = n :: w).
      { destruct r as [|b r]; [discriminate|]. destruct (N.eq_dec b 123) as [->|Nb].
        - destruct (to_brace r) as [[nm r']|] eqn:E; [|discriminate]. destruct (to_brace_sound _ _ _ E) as [-> NI].
          destruct nm as [|x nm]; [discriminate|]. destruct (uname (x :: nm)) as [n|] eqn:U; [|discriminate].
          destruct (unescape fuel r') as [w|] eqn:E'; [|discriminate]. injection H as <-.
          exists (x :: nm), r'. split; [reflexivity|]. split; [discriminate|]. split; [exact NI|]. exists n, w. auto.
        - exfalso. revert H. destruct b as [|p]; [discriminate|]. do 7 (destruct p as [p|p|]; try discriminate; try congruence). }
      destruct K as (nm & r' & -> & NN & NI & n & w & U & E & ->). apply ascii_cons in A. destruct A as [_ A].
      apply ascii_app in A. destruct A as [A1 A2]. apply ascii_cons in A2. destruct A2 as [_ A2].
      apply D_name; auto; [intros c I; specialize (A1 c I); lia|]. apply IH; auto. cbn [length] in L. rewrite app_length in L. cbn [length] in L. lia. }
    destruct (unescape fuel r) as [w|] eqn:E; [|discriminate]. injection H as <-. cbn [app]. apply D_unknown; [|lia|apply IH; auto; lia].
    unfold octal in O. destruct (N.leb_spec 48 e), (N.leb_spec e 55); cbn [andb] in O; try discriminate;
      intros [Q|[Q|[Q|[Q|[Q|[Q|Q]]]]]]; try contradiction; try lia; subst e; discriminate.
Qed.

Lemma oct_simple c w : oct_digit c w -> c <> 10 /\ ~ In c (map fst simple_escapes).
Proof. intros [H ->]. split; [lia|]. cbn [map fst simple_escapes In]. intros G. decompose [or] G; try contradiction; lia. Qed.

Lemma unescape_complete s v : denotes s v -> ascii s -> forall fuel, (length s <= fuel)%nat -> unescape fuel s = Some v.
Proof.
  intros D. induction D as [|c s v NE D IH|c d s v I D IH|s v D IH|ds n s v Ld Nm T D IH|e k ds n s v I Lk Nm Ln D IH
                           |nm n s v NN NI NL U D IH|c s v NS Lc D IH]; intros A fuel L.
  - destruct fuel; reflexivity.
  - apply ascii_cons in A. destruct A as [_ A]. destruct fuel as [|fuel]; cbn [length] in L; [lia|].
    cbn [Literal_Model.unescape]. rewrite (proj2 (N.eqb_neq c 92) NE). cbn [negb]. rewrite (IH A) by lia. reflexivity.
  - apply ascii_cons in A. destruct A as [_ A]. apply ascii_cons in A. destruct A as [_ A].
    destruct fuel as [|fuel]; cbn [length] in L; [lia|].
    destruct (simple_cases c (in_map fst _ _ I)) as (d' & I' & Q). rewrite Q, (IH A) by lia. f_equal. f_equal.
    apply (simple_fun c); assumption.
  - apply ascii_cons in A. destruct A as [_ A]. apply ascii_cons in A. destruct A as [_ A].
    destruct fuel as [|fuel]; cbn [length] in L; [lia|].
    cbn [Literal_Model.unescape]. change (negb (92 =? 92)) with false. change (10 =? 10) with true. cbn iota. rewrite (IH A) by lia. reflexivity.
  - destruct ds as [|c ds]; [cbn in Ld; lia|]. cbn [app] in *.
    apply ascii_cons in A. destruct A as [_ A]. apply ascii_cons in A. destruct A as [_ A]. apply ascii_app in A. destruct A as [_ A].
    destruct fuel as [|fuel]; cbn [length] in L; [lia|]. rewrite app_length in L. cbn [length] in Ld.
    apply numeral_inv in Nm. destruct Nm as (w0 & w & D0 & Nm & ->). destruct (oct_simple _ _ D0) as [O1 O2].
    rewrite (unescape_other fuel c _ O1 O2). cbv zeta. apply octal_spec in D0. rewrite D0.
    assert (T' : length ds = 2%nat \/ no_octal s) by (destruct T as [T|T]; [left; cbn [length] in T; lia|right; exact T]).
    rewrite (octdigits_complete 2 ds w w0 s Nm ltac:(lia) T').
    rewrite (IH A) by lia. reflexivity.
  - apply ascii_cons in A. destruct A as [_ A]. apply ascii_cons in A. destruct A as [_ A]. apply ascii_app in A. destruct A as [_ A].
    destruct fuel as [|fuel]; cbn [length] in L; [lia|]. rewrite app_length in L.
    assert (O1 : e <> 10 /\ ~ In e (map fst simple_escapes) /\ octal e = None /\ (e =? 120) || (e =? 117) || (e =? 85) = true /\
                 (if e =? 120 then 2%nat else if e =? 117 then 4%nat else 8%nat) = k).
    { cbn [In] in I. destruct I as [[= <- <-]|[[= <- <-]|[[= <- <-]|[]]]]; (split; [discriminate|]);
        (split; [cbn [map fst simple_escapes In]; intros G; decompose [or] G; try contradiction; discriminate|]); repeat split. }
    destruct O1 as (O1 & O2 & O3 & O4 & O5). rewrite (unescape_other fuel e _ O1 O2). cbv zeta. rewrite O3, O4, O5.
    rewrite <- Lk, (hexdigits_complete ds n 0 s Nm), N.mul_0_l, N.add_0_l, (proj2 (N.leb_le _ _) Ln), (IH A) by lia. reflexivity.
  - apply ascii_cons in A. destruct A as [_ A]. apply ascii_cons in A. destruct A as [_ A]. apply ascii_cons in A. destruct A as [_ A].
    apply ascii_app in A. destruct A as [_ A]. apply ascii_cons in A. destruct A as [_ A].
    destruct fuel as [|fuel]; cbn [length] in L; [lia|]. rewrite app_length in L. cbn [length] in L.
    assert (S : ~ In 78 (map fst simple_escapes)).
    { cbn [map fst simple_escapes In]. intros G. decompose [or] G; try contradiction; discriminate. }
    rewrite (unescape_other fuel 78 _ ltac:(discriminate) S). cbv zeta. change (octal 78) with (@None N).
    change ((78 =? 120) || (78 =? 117) || (78 =? 85)) with false. change (78 =? 78) with true. cbn iota.
    rewrite (to_brace_complete nm s NI). destruct nm as [|x nm]; [congruence|]. rewrite U, (IH A) by lia. reflexivity.
  - apply ascii_cons in A. destruct A as [_ A]. apply ascii_cons in A. destruct A as [_ A].
    destruct fuel as [|fuel]; cbn [length] in L; [lia|].
    assert (O1 : c <> 10 /\ ~ In c (map fst simple_escapes) /\ octal c = None /\ (c =? 120) || (c =? 117) || (c =? 85) = false /\ (c =? 78) = false).
    { unfold starts_escape in NS. split; [tauto|]. split; [tauto|]. split.
      - unfold octal. destruct (N.leb_spec 48 c), (N.leb_spec c 55); cbn [andb]; auto. exfalso. apply NS. right. right. left. lia.
      - destruct (N.eqb_spec c 120), (N.eqb_spec c 117), (N.eqb_spec c 85), (N.eqb_spec c 78); auto; tauto. }
    destruct O1 as (O1 & O2 & O3 & O4 & O5). rewrite (unescape_other fuel c _ O1 O2). cbv zeta. rewrite O3, O4, O5, (IH A) by lia. reflexivity.
Qed.

(* ---- runs ---- *)
Lemma utf8_ascii s : ascii s -> flat_map utf8 s = s.
Proof.
  induction s as [|c s IH]; intros A; [reflexivity|]. apply ascii_cons in A. destruct A as [Ac A].
  cbn [flat_map]. rewrite (IH A). unfold utf8. rewrite (proj2 (N.ltb_lt _ _) Ac). reflexivity.
Qed.
Lemma decode_spec run v : ascii run -> (decode uname run = Some v <-> denotes run v).
Proof.
  intros A. unfold decode. rewrite (utf8_ascii run A). cbv zeta. split.
  - apply unescape_sound; auto.
  - intros D. apply unescape_complete; auto.
Qed.
Lemma denotes_nil v : denotes [] v -> v = [].
Proof. intros H. inversion H. reflexivity. Qed.

Lemma app_cons_split A (a : list A) : forall b run c r, a ++ b = run ++ c :: r ->
  (exists run', run = a ++ run' /\ b = run' ++ c :: r) \/ (In c a).
Proof.
  induction a as [|x a IH]; intros b run c r H; cbn [app] in *; [left; eauto|].
  destruct run as [|y run]; cbn [app] in H; injection H as -> H.
  - right. left. reflexivity.
  - destruct (IH _ _ _ _ H) as [(run' & -> & ->)|I]; [left; eauto|right; right; exact I].
Qed.
Lemma numeral_in (d : N -> N -> Prop) b s v c : numeral d b s v -> In c s -> exists w, d c w.
Proof.
  intros H. induction H as [|s v c' w H IH D]; [intros []|]. intros I. apply in_app_or in I.
  destruct I as [I|[<-|[]]]; eauto.
Qed.
Lemma hex_small c w : hex_digit c w -> c < 128.
Proof. intros []; lia. Qed.
Lemma oct_small c w : oct_digit c w -> c < 128.
Proof. intros [? ->]; lia. Qed.
Lemma simple_small c d : In (c, d) simple_escapes -> c < 128.
Proof. cbn [In simple_escapes]. intros H. decompose [or] H; try contradiction; injection H0 || injection H1; intros; subst; lia. Qed.

Lemma denotes_split s v : denotes s v -> forall run c r, 256 < c -> s = run ++ c :: r ->
  exists a b, denotes run a /\ denotes r b /\ v = a ++ c :: b.
Proof.
  intros D. induction D as [|x s v NE D IH|x d s v I D IH|s v D IH|ds n s v Ld Nm T D IH|e k ds n s v I Lk Nm Ln D IH
                           |nm n s v NN NI NL U D IH|x s v NS Lc D IH]; intros run c r Hc E.
  - destruct run; discriminate.
  - destruct run as [|y run]; cbn [app] in E; injection E as -> E.
    + subst r. exists [], v. repeat split; [constructor|exact D].
    + destruct (IH run c r Hc E) as (a & b & Da & Db & ->). exists (y :: a), b. repeat split; auto. constructor; auto.
  - destruct run as [|y run]; cbn [app] in E; injection E as <- E; [lia|].
    destruct run as [|z run]; cbn [app] in E; injection E as -> E.
    + apply simple_small in I. lia.
    + destruct (IH run c r Hc E) as (a & b & Da & Db & ->). exists (d :: a), b. repeat split; auto. apply (D_simple _ z d); auto.
  - destruct run as [|y run]; cbn [app] in E; injection E as <- E; [lia|].
    destruct run as [|z run]; cbn [app] in E; injection E as <- E; [lia|].
    destruct (IH run c r Hc E) as (a & b & Da & Db & ->). exists a, b. repeat split; auto. apply D_newline; auto.
  - destruct run as [|y run]; cbn [app] in E; injection E as <- E; [lia|].
    apply app_cons_split in E. destruct E as [(run' & -> & Er)|I].
    + destruct (IH run' c r Hc Er) as (a & b & Da & Db & ->). exists (n :: a), b. repeat split; auto.
      apply D_octal; auto. destruct T as [T|T]; [left; exact T|right]. intros c' w r' Q O. subst run'. cbn [app] in Er.
      apply (T c' w (r' ++ c :: r)); [subst s; reflexivity|exact O].
    + destruct (numeral_in _ _ _ _ _ Nm I) as [w W]. apply oct_small in W. lia.
  - destruct run as [|y run]; cbn [app] in E; injection E as <- E; [lia|].
    destruct run as [|z run]; cbn [app] in E; injection E as <- E.
    { cbn [In] in I. destruct I as [[= <- _]|[[= <- _]|[[= <- _]|[]]]]; lia. }
    apply app_cons_split in E. destruct E as [(run' & -> & Er)|I'].
    + destruct (IH run' c r Hc Er) as (a & b & Da & Db & ->). exists (n :: a), b. repeat split; auto. apply (D_hex _ e k ds n); auto.
    + destruct (numeral_in _ _ _ _ _ Nm I') as [w W]. apply hex_small in W. lia.
  - destruct run as [|y run]; cbn [app] in E; injection E as <- E; [lia|].
    destruct run as [|z run]; cbn [app] in E; injection E as <- E; [lia|].
    destruct run as [|z run]; cbn [app] in E; injection E as <- E; [lia|].
    change (nm ++ 125 :: s) with (nm ++ [125] ++ s) in E. rewrite app_assoc in E.
    apply app_cons_split in E. destruct E as [(run' & -> & Er)|I'].
    + destruct (IH run' c r Hc Er) as (a & b & Da & Db & ->). exists (n :: a), b. repeat split; auto.
      rewrite <- app_assoc. cbn [app]. apply D_name; auto.
    + apply in_app_or in I'. destruct I' as [I'|[<-|[]]]; [specialize (NL c I')|]; lia.
  - destruct run as [|y run]; cbn [app] in E; injection E as <- E; [lia|].
    destruct run as [|z run]; cbn [app] in E; injection E as -> E; [lia|].
    destruct (IH run c r Hc E) as (a & b & Da & Db & ->). exists (92 :: z :: a), b. repeat split; auto. apply D_unknown; auto.
Qed.
Lemma denotes_join run a : denotes run a -> forall c r b, 256 < c -> denotes r b -> denotes (run ++ c :: r) (a ++ c :: b).
Proof.
  intros D. induction D as [|x s v NE D IH|x d s v I D IH|s v D IH|ds n s v Ld Nm T D IH|e k ds n s v I Lk Nm Ln D IH
                           |nm n s v NN NI NL U D IH|x s v NS Lc D IH]; intros c r b Hc Db; cbn [app].
  - apply D_plain; [lia|exact Db].
  - apply D_plain; auto.
  - apply (D_simple _ x d); auto.
  - apply D_newline; auto.
  - rewrite <- app_assoc. apply D_octal; auto. destruct T as [T|T]; [left; exact T|right].
    intros c' w r' Q O. destruct s as [|x s]; cbn [app] in Q; injection Q as -> Q.
    + apply oct_small in O. lia.
    + eapply T; [reflexivity|exact O].
  - rewrite <- app_assoc. apply (D_hex _ e k ds n); auto.
  - rewrite <- app_assoc. cbn [app]. apply D_name; auto.
  - apply D_unknown; auto.
Qed.

(** No character between 128 and 256. *)
Definition no_latin (s : text) : Prop := forall c, In c s -> c < 128 \/ 256 < c.
Lemma scan_spec s : forall run v, ascii run -> no_latin s -> (scan uname run s = Some v <-> denotes (run ++ s) v).
Proof.
  induction s as [|c s IH]; intros run v A NL.
  - rewrite app_nil_r. cbn [scan]. destruct run as [|x run].
    + split; [intros [= <-]; constructor|intros D; apply denotes_nil in D; subst; reflexivity].
    + rewrite <- decode_spec by exact A. destruct (decode uname (x :: run)); [|tauto]. rewrite app_nil_r. tauto.
  - assert (NLs : no_latin s) by (intros x I; apply NL; right; exact I). cbn [scan].
    destruct (NL c (or_introl eq_refl)) as [Hc|Hc].
    + rewrite (proj2 (N.leb_le c 256)) by lia. rewrite IH; [rewrite <- app_assoc; reflexivity| |exact NLs].
      intros x I. apply in_app_or in I. destruct I as [I|[<-|[]]]; auto.
    + rewrite (proj2 (N.leb_gt c 256)) by lia.
      assert (K : forall w, scan uname [] s = Some w <-> denotes s w) by (intros w; apply (IH [] w); [intros x []|exact NLs]).
      destruct run as [|x run].
      * cbn [app]. destruct (scan uname [] s) as [w|] eqn:E.
        -- split; [intros [= <-]; apply D_plain; [lia|apply K; reflexivity]|].
           intros D. destruct (denotes_split _ _ D [] c s Hc eq_refl) as (a & b & Da & Db & ->). apply denotes_nil in Da. subst a.
           apply K in Db. injection Db as ->. reflexivity.
        -- split; [discriminate|]. intros D. destruct (denotes_split _ _ D [] c s Hc eq_refl) as (a & b & Da & Db & ->).
           apply K in Db. discriminate.
      * split.
        -- intros H. destruct (decode uname (x :: run)) as [a|] eqn:Ea; [|discriminate].
           destruct (scan uname [] s) as [w|] eqn:E; [|discriminate]. injection H as <-.
           apply decode_spec in Ea; [|exact A]. apply denotes_join; auto. apply K. reflexivity.
        -- intros D. destruct (denotes_split _ _ D (x :: run) c s Hc eq_refl) as (a & b & Da & Db & ->).
           apply decode_spec in Da; [|exact A]. rewrite Da. apply K in Db. rewrite Db. reflexivity.
Qed.
End Decode.

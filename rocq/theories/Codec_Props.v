(** C84-C88: base64, hexadecimal, and other coding functions. *)
From Coq Require Import SpecFloat ZifyN ZifyBool.
From Verif Require Import Base PyVal Utils_Model Calc_Model Str_Model Str_Spec Codec_Model Codec_Spec Codec_Proofs.
Open Scope N_scope.
Ltac Zify.zify_post_hook ::= Z.div_mod_to_equations.

Lemma below : forall (P : N -> Prop) k, (forall i, In i (map N.of_nat (seq 0 k)) -> P i) -> forall v, v < N.of_nat k -> P v.
Proof. intros P k H v L. apply H. apply in_map_iff. exists (N.to_nat v). split; [apply N2Nat.id|]. apply in_seq. lia. Qed.
Lemma b64_facts : forall v, v < 64 -> (b64_char v =? 61) = false /\ b64_value (b64_char v) = Some v /\ b64_char v = nth (N.to_nat v) b64_alphabet 0 /\ b64_char v < 128.
Proof.
  apply (below _ 64). intros i H. cbn [seq map] in H. repeat (destruct H as [<-|H]; [vm_compute; repeat split; reflexivity|]). destruct H.
Qed.
Lemma hex_facts : forall d, d < 16 -> hex_value (hex_char d) = Some d /\ hex_char d = nth (N.to_nat d) digit_chars 0.
Proof.
  apply (below _ 16). intros i H. cbn [seq map] in H. repeat (destruct H as [<-|H]; [vm_compute; repeat split; reflexivity|]). destruct H.
Qed.

(** Induction over a list three elements at a time. *)
Lemma list_ind3 : forall (A : Type) (P : list A -> Prop), P [] -> (forall x, P [x]) -> (forall x y, P [x; y]) ->
  (forall x y z r, P r -> P (x :: y :: z :: r)) -> forall l, P l.
Proof.
  intros A P H0 H1 H2 H3 l. assert (G : P l /\ (forall x, P (x :: l)) /\ forall x y, P (x :: y :: l)); [|apply G].
  induction l as [|a l [I0 [I1 I2]]]; [auto|]. split; [apply I1|]. split; [intro x; apply I2|]. intros x y. apply H3, I0.
Qed.

(** One step of the decoder. *)
Lemma go_char : forall quad left pads v r, v < 64 ->
  b64go quad left pads (b64_char v :: r) =
  if quad =? 0 then b64go 1 v 0 r
  else if quad =? 1 then do o <- b64go 2 (v mod 16) 0 r; Ok (left * 4 + v / 16 :: o)
  else if quad =? 2 then do o <- b64go 3 (v mod 4) 0 r; Ok (left * 16 + v / 4 :: o)
  else do o <- b64go 0 0 0 r; Ok (left * 64 + v :: o).
Proof. intros quad left pads v r H. destruct (b64_facts v H) as [A [B _]]. cbn [b64go]. rewrite A, B. reflexivity. Qed.

Lemma go_pad2 : forall l, b64go 2 l 0 [61; 61] = Ok [].
Proof. reflexivity. Qed.
Lemma go_pad1 : forall l, b64go 3 l 0 [61] = Ok [].
Proof. reflexivity. Qed.
Lemma base64_inverse : forall b, Forall (fun x => x < 256) b -> b64decode (b64encode b) = Ok b.
Proof.
  unfold b64decode. induction b as [|x|x y|x y z r IH] using list_ind3; intro H.
  - reflexivity.
  - inversion H; subst. cbn [b64encode]. rewrite !go_char by lia. cbn [N.eqb Pos.eqb]. rewrite ?go_pad2, ?go_pad1. cbn [bind]. f_equal. f_equal. lia.
  - inversion H as [|? ? Hx H1]; subst. inversion H1; subst. cbn [b64encode]. rewrite !go_char by lia. cbn [N.eqb Pos.eqb]. rewrite ?go_pad2, ?go_pad1. cbn [bind].
    f_equal. f_equal; [lia|]. f_equal. lia.
  - inversion H as [|? ? Hx H1]; subst. inversion H1 as [|? ? Hy H2]; subst. inversion H2 as [|? ? Hz H3]; subst.
    cbn [b64encode]. rewrite !go_char by lia. cbn [N.eqb Pos.eqb]. rewrite (IH H3). cbn [bind]. f_equal. f_equal; [lia|]. f_equal; [lia|]. f_equal. lia.
Qed.

Lemma ascii_encode : forall s, Forall (fun c => c < 128) s -> encode s = Ok s.
Proof.
  induction 1 as [|c s H _ IH]; [reflexivity|]. cbn [encode]. unfold enc1. destruct (N.ltb_spec c 128); [|lia]. rewrite IH. reflexivity.
Qed.
Lemma b64_ascii : forall b, Forall (fun x => x < 256) b -> Forall (fun c => c < 128) (b64encode b).
Proof.
  induction b as [|x|x y|x y z r IH] using list_ind3; intro H; [constructor| | |];
    inversion H as [|? ? Hx H1]; subst; try (inversion H1 as [|? ? Hy H2]; subst); try (inversion H2 as [|? ? Hz H3]; subst);
    cbn [b64encode]; repeat (apply Forall_cons; [first [apply b64_facts; lia|lia]|]); auto.
Qed.

(** C84: FROM_BASE64 undoes TO_BASE64, for every text; *)
Theorem base64_roundtrip : forall s, Forall scalar s -> exists e,
  guarded (mysql_to_base64 (Val (VStr s))) = Val (VStr e) /\ guarded (mysql_from_base64 (Val (VStr e))) = Val (VStr s).
Proof.
  intros s H. exists (b64encode (flat_map utf8 s)). unfold mysql_to_base64, mysql_from_base64. rewrite (encode_utf8 s H). split; [reflexivity|].
  pose proof (utf8_bytes s H) as B. rewrite (ascii_encode _ (b64_ascii _ B)). cbn [bind]. rewrite (base64_inverse _ B). cbn [bind].
  rewrite (decode_encode s H). reflexivity.
Qed.

Lemma number_app : forall b l m a, fold_left (fun a d => a * b + d) (l ++ m) a = fold_left (fun a d => a * b + d) m (fold_left (fun a d => a * b + d) l a).
Proof. intros. apply fold_left_app. Qed.

(** TO_BASE64 is the base64 form of the UTF-8 bytes. *)
Theorem to_base64_standard : forall s, Forall scalar s -> exists e,
  guarded (mysql_to_base64 (Val (VStr s))) = Val (VStr e) /\ is_base64 (flat_map utf8 s) e.
Proof.
  intros s H. exists (b64encode (flat_map utf8 s)). unfold mysql_to_base64. rewrite (encode_utf8 s H). split; [reflexivity|].
  pose proof (utf8_bytes s H) as B. clear H. revert B. generalize (flat_map utf8 s). clear s. intros b B.
  assert (G : forall acc, exists sextets k, b64encode b = map (fun v => nth (N.to_nat v) b64_alphabet 0) sextets ++ repeat 61 k /\ Forall (fun v => v < 64) sextets /\
    (k < 4)%nat /\ ((length sextets + k) mod 4 = 0)%nat /\
    exists zeros, zeros < 6 /\ 6 * N.of_nat (length sextets) = 8 * N.of_nat (length b) + zeros /\
    fold_left (fun a d => a * 64 + d) sextets acc = fold_left (fun a d => a * 256 + d) b acc * 2 ^ zeros).
  { revert B. induction b as [|x|x y|x y z r IH] using list_ind3; intros H acc.
    - exists [], 0%nat. split; [reflexivity|]. split; [constructor|]. split; [lia|]. split; [reflexivity|]. exists 0. split; [lia|]. split; [reflexivity|]. cbn [fold_left]. rewrite N.pow_0_r. lia.
    - inversion H; subst. exists [x / 4; (x mod 4) * 16], 2%nat. split.
      { cbn [b64encode map app repeat]. rewrite <- !(fun v L => proj1 (proj2 (proj2 (b64_facts v L)))) by lia. reflexivity. }
      split; [repeat (apply Forall_cons; [lia|]); constructor|]. split; [lia|]. split; [reflexivity|]. exists 4. split; [lia|]. split; [reflexivity|]. cbn [fold_left]. change (2 ^ 4) with 16. lia.
    - inversion H as [|? ? Hx H1]; subst. inversion H1; subst. exists [x / 4; (x mod 4) * 16 + y / 16; (y mod 16) * 4], 1%nat. split.
      { cbn [b64encode map app repeat]. rewrite <- !(fun v L => proj1 (proj2 (proj2 (b64_facts v L)))) by lia. reflexivity. }
      split; [repeat (apply Forall_cons; [lia|]); constructor|]. split; [lia|]. split; [reflexivity|]. exists 2. split; [lia|]. split; [reflexivity|]. cbn [fold_left]. change (2 ^ 2) with 4. lia.
    - inversion H as [|? ? Hx H1]; subst. inversion H1 as [|? ? Hy H2]; subst. inversion H2 as [|? ? Hz H3]; subst.
      destruct (IH H3 (((acc * 256 + x) * 256 + y) * 256 + z)) as [ss [k [E [F [K [M [zs [Z1 [Z2 Z3]]]]]]]]].
      exists (x / 4 :: (x mod 4) * 16 + y / 16 :: (y mod 16) * 4 + z / 64 :: z mod 64 :: ss), k. split.
      { cbn [b64encode map app]. rewrite E, <- !(fun v L => proj1 (proj2 (proj2 (b64_facts v L)))) by lia. reflexivity. }
      split; [repeat (apply Forall_cons; [lia|]); exact F|]. split; [exact K|]. split.
      { cbn [length]. replace (S (S (S (S (length ss)))) + k)%nat with (length ss + k + 1 * 4)%nat by lia. rewrite Nat.mod_add by lia. exact M. }
      exists zs. split; [exact Z1|]. split; [cbn [length]; lia|]. cbn [fold_left]. rewrite <- Z3. f_equal. lia. }
  exact (G 0).
Qed.

(** C85: UNHEX of HEX of a text gives back its UTF-8 bytes; HEX writes them as one hexadecimal number with two digits per byte. *)
Lemma unhex_bytes : forall b, Forall (fun x => x < 256) b -> a2b_hex (b2a_hex b) = Ok b.
Proof.
  induction 1 as [|x b H _ IH]; [reflexivity|]. unfold b2a_hex in *. cbn [flat_map app a2b_hex].
  rewrite (proj1 (hex_facts (x / 16) ltac:(lia))), (proj1 (hex_facts (x mod 16) ltac:(lia))), IH. cbn [bind]. f_equal. f_equal. lia.
Qed.
Theorem hex_text : forall frepr s, s <> [] -> Forall scalar s -> exists e,
  guarded (mysql_hex (Val (VStr s))) = Val (VStr e) /\
  guarded (mysql_unhex frepr (Val (VStr e))) = Bytes (flat_map utf8 s) /\
  exists ds, written 16 ds e /\ length ds = (2 * length (flat_map utf8 s))%nat /\ number 16 ds = number 256 (flat_map utf8 s).
Proof.
  intros frepr s N H. exists (b2a_hex (flat_map utf8 s)). pose proof (utf8_bytes s H) as B. split.
  { unfold mysql_hex. destruct s as [|c s]; [congruence|]. rewrite (encode_utf8 _ H). reflexivity. }
  split.
  { unfold mysql_unhex, bstr, estr. cbn [ensure_str bind need_str]. rewrite (unhex_bytes _ B). reflexivity. }
  revert B. generalize (flat_map utf8 s). clear. intros b B.
  exists (flat_map (fun x => [x / 16; x mod 16]) b). split; [split|split].
  - induction B as [|x b L _ IH]; [reflexivity|]. unfold b2a_hex in *. cbn [flat_map app map]. rewrite IH, <- !(fun v L => proj2 (hex_facts v L)) by lia. reflexivity.
  - induction B as [|x b L _ IH]; [constructor|]. cbn [flat_map app]. repeat (apply Forall_cons; [lia|]). exact IH.
  - clear B. induction b as [|x b IH]; [reflexivity|]. cbn [flat_map length app]. rewrite IH. lia.
  - unfold number. generalize 0 at 1 2. induction B as [|x b L _ IH]; intro a; [reflexivity|]. cbn [flat_map app fold_left]. rewrite IH. f_equal. lia.
Qed.

(** UTF-8 encoding and decoding. *)
From Coq Require Import SpecFloat ZifyN ZifyBool.
From Verif Require Import Base PyVal Utils_Model Calc_Model Str_Model Str_Spec Codec_Model Codec_Spec.
Open Scope N_scope.
Ltac Zify.zify_post_hook ::= Z.div_mod_to_equations.

Ltac tests := repeat match goal with
  | |- context [?a <? ?b] => let H := fresh in destruct (N.ltb_spec a b) as [H|H]; try lia
  | |- context [?a <=? ?b] => let H := fresh in destruct (N.leb_spec a b) as [H|H]; try lia
  | |- context [?a =? ?b] => let H := fresh in destruct (N.eqb_spec a b) as [H|H]; try lia
  end; cbn [andb orb negb].

Lemma enc_utf8 : forall c, scalar c -> enc1 c = Some (utf8 c).
Proof. intros c H. unfold scalar in H. unfold enc1, utf8. tests; try reflexivity. Qed.

Lemma encode_utf8 : forall s, Forall scalar s -> encode s = Ok (flat_map utf8 s).
Proof. induction 1 as [|c s H _ IH]; [reflexivity|]. cbn [encode flat_map]. rewrite (enc_utf8 c H), IH. reflexivity. Qed.

Lemma decode_char : forall c r, scalar c -> decode (utf8 c ++ r) = cons_res c (decode r).
Proof.
  intros c r H. unfold scalar in H. unfold utf8.
  destruct (N.ltb_spec c 128) as [A|A].
  { cbn [app decode]. destruct (N.ltb_spec c 128); [reflexivity|lia]. }
  destruct (N.ltb_spec c 2048) as [B|B].
  { cbn [app decode]. unfold cont. replace ((192 + c / 64 - 192) * 64 + (128 + c mod 64 - 128)) with c by lia. tests. all: reflexivity. }
  destruct (N.ltb_spec c 65536) as [D|D].
  { assert (E : (c / 4096 * 64 + (c / 64) mod 64) * 64 + c mod 64 = c) by lia.
    assert (L1 : c / 4096 < 16) by lia. assert (L2 : (c / 64) mod 64 < 64) by lia. assert (L3 : c mod 64 < 64) by lia.
    revert E L1 L2 L3. generalize (c / 4096) ((c / 64) mod 64) (c mod 64). intros x y z E L1 L2 L3.
    cbn [app decode]. unfold cont. cbv zeta.
    replace (((224 + x - 224) * 64 + (128 + y - 128)) * 64 + (128 + z - 128)) with c by lia. tests. all: reflexivity. }
  assert (E : ((c / 262144 * 64 + (c / 4096) mod 64) * 64 + (c / 64) mod 64) * 64 + c mod 64 = c) by lia.
  assert (L0 : c / 262144 < 5) by lia. assert (L1 : (c / 4096) mod 64 < 64) by lia. assert (L2 : (c / 64) mod 64 < 64) by lia. assert (L3 : c mod 64 < 64) by lia.
  revert E L0 L1 L2 L3. generalize (c / 262144) ((c / 4096) mod 64) ((c / 64) mod 64) (c mod 64). intros w x y z E L0 L1 L2 L3.
  cbn [app decode]. unfold cont. cbv zeta.
  replace ((((240 + w - 240) * 64 + (128 + x - 128)) * 64 + (128 + y - 128)) * 64 + (128 + z - 128)) with c by lia.
  tests. all: reflexivity.
Qed.
Lemma decode_encode : forall s, Forall scalar s -> decode (flat_map utf8 s) = Ok s.
Proof. induction 1 as [|c s H _ IH]; [reflexivity|]. cbn [flat_map]. rewrite decode_char, IH by exact H. reflexivity. Qed.
Lemma utf8_bytes : forall s, Forall scalar s -> Forall (fun b => b < 256) (flat_map utf8 s).
Proof.
  induction 1 as [|c s H _ IH]; [constructor|]. cbn [flat_map]. apply Forall_app. split; [|exact IH]. unfold scalar in H. unfold utf8. tests; repeat constructor; lia.
Qed.

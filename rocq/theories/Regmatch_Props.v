(** C222, C223: REGEXP. *)
From Verif Require Import Base PyVal Calc_Model Calc_Proofs Regexp_Model Regmatch_Model.
Open Scope Z_scope.

(** Specification: the pattern matches somewhere in the text. *)
Definition occurs_in (at_ : engine) (s : text) : Prop := exists i j, (i <= length s)%nat /\ at_ s i = Some j.

Lemma search_from_spec : forall at_ s n i, 
  match search_from at_ s n i with
  | Some (a, b) => (i <= a <= i + n)%nat /\ at_ s a = Some b /\ (forall k, (i <= k < a)%nat -> at_ s k = None)
  | None => forall k, (i <= k <= i + n)%nat -> at_ s k = None
  end.
Proof.
  intros at_ s. induction n as [|n IH]; intro i; cbn [search_from]; destruct (at_ s i) as [j|] eqn:E.
  - split; [lia|]. split; [exact E|]. intros k K. lia.
  - intros k K. replace k with i by lia. exact E.
  - split; [lia|]. split; [exact E|]. intros k K. lia.
  - specialize (IH (S i)). destruct (search_from at_ s n (S i)) as [[a b]|].
    + destruct IH as (H1 & H2 & H3). split; [lia|]. split; [exact H2|]. intros k K. destruct (Nat.eq_dec k i) as [->|D]; [exact E|]. apply H3. lia.
    + intros k K. destruct (Nat.eq_dec k i) as [->|D]; [exact E|]. apply IH. lia.
Qed.
Lemma instr_first : forall at_ s, s <> [] ->
  regexp_instr (re_search at_) s 1 1 false = match re_search at_ s with Some (a, _) => 1 + Z.of_nat a | None => 0 end.
Proof.
  intros at_ s N. unfold regexp_instr.
  assert (pyslice s (Some (1 - 1)) None = s) as ->.
  { unfold pyslice, clampidx. cbn [Z.sub Z.ltb Z.compare]. cbn. rewrite Z.min_l by lia. cbn [Z.to_nat skipn]. rewrite Nat.sub_0_r. apply firstn_all. }
  cbn [Z.to_nat Pos.to_nat Pos.iter_op instr_loop]. destruct s as [|c0 s0]; [contradiction|].
  destruct (re_search at_ (c0 :: s0)) as [[a b]|]; reflexivity.
Qed.

(** C222. REGEXP is 1 exactly when the pattern matches at the first character, that is, when REGEXP_INSTR gives 1 (for a text that
    is not empty); otherwise it is 0; NULL if the text or the pattern is. *)
Theorem regexp_at_start : forall compiled p x mt at_, compiled p mt = Ok at_ ->
  (mysql_regexp compiled (VStr x) (VStr p) mt = Ok (VInt 1) <-> exists j, at_ x 0%nat = Some j) /\
  (mysql_regexp compiled (VStr x) (VStr p) mt = Ok (VInt 0) <-> at_ x 0%nat = None) /\
  (x <> [] -> (mysql_regexp compiled (VStr x) (VStr p) mt = Ok (VInt 1) <-> mysql_regexp_instr compiled (VStr x) (VStr p) mt = Ok (VInt 1))).
Proof.
  intros compiled p x mt at_ C. unfold mysql_regexp, mysql_regexp_instr. cbn [is_none orb]. rewrite C. unfold re_match_at.
  split; [|split].
  - destruct (at_ x 0%nat) as [j|]; split; intro H; [exists j; reflexivity|reflexivity|discriminate H|destruct H as [j H]; discriminate H].
  - destruct (at_ x 0%nat) as [j|]; split; intro H; try discriminate H; reflexivity.
  - intro N. rewrite (instr_first at_ x N). pose proof (search_from_spec at_ x (length x) 0) as S. unfold re_search.
    destruct (search_from at_ x (length x) 0) as [[a b]|].
    + destruct S as (S1 & S2 & S3). destruct (at_ x 0%nat) as [j|] eqn:E.
      * assert (a = 0%nat) as -> by (destruct a; [reflexivity|]; specialize (S3 0%nat ltac:(lia)); congruence). split; reflexivity.
      * split; intro H; [discriminate H|]. exfalso. assert (E2 : 1 + Z.of_nat a = 1) by congruence. assert (a = 0%nat) as -> by lia. congruence.
    + rewrite (S 0%nat ltac:(lia)). split; intro H; discriminate H.
Qed.
Theorem regexp_null : forall compiled s r mt, (s = VNone \/ r = VNone) <-> mysql_regexp compiled s r mt = Ok VNone.
Proof.
  intros compiled s r mt. unfold mysql_regexp. split.
  - intros [->| ->]; [|reflexivity]. destruct r; reflexivity.
  - intro H. destruct r as [| | | |p| | |]; [right; reflexivity|..]; destruct s as [| | | |x| | |]; try (left; reflexivity); try discriminate H.
    cbn [is_none orb] in H. destruct (compiled p mt) as [at_|e]; [|discriminate H]. destruct (re_match_at at_ x); discriminate H.
Qed.
(** REGEXP_INSTR is positive exactly when the pattern matches somewhere. *)
Theorem regexp_instr_anywhere : forall at_ x, x <> [] -> (0 < regexp_instr (re_search at_) x 1 1 false <-> occurs_in at_ x).
Proof.
  intros at_ x N. rewrite (instr_first at_ x N). pose proof (search_from_spec at_ x (length x) 0) as S. unfold re_search, occurs_in.
  destruct (search_from at_ x (length x) 0) as [[a b]|].
  - destruct S as (S1 & S2 & S3). split; intro H; [exists a, b; split; [lia|exact S2]|lia].
  - split; intro H; [lia|]. destruct H as (i & j & I & H). rewrite (S i ltac:(lia)) in H. discriminate H.
Qed.

(** A concrete engine: the pattern b. *)
Definition engine_b : engine := fun s i => match nth_error s i with Some c => if (c =? 98)%N then Some (Datatypes.S i) else None | None => None end.
Definition compile_b (p : text) (mt : val) : res engine := if text_eqb p (t "b") then Ok engine_b else Err ValueError.
(** C223. SQL's REGEXP is TRUE when the pattern matches somewhere; here 'abc' REGEXP 'b' is 0. *)
Theorem regexp_anywhere_refuted :
  occurs_in engine_b (t "abc") /\ mysql_regexp compile_b (VStr (t "abc")) (VStr (t "b")) VNone = Ok (VInt 0) /\
  mysql_regexp_instr compile_b (VStr (t "abc")) (VStr (t "b")) VNone = Ok (VInt 2).
Proof. split; [exists 1%nat, 2%nat; split; [cbn; lia|reflexivity]|]. split; vm_compute; reflexivity. Qed.
Example regexp_start_ex : mysql_regexp compile_b (VStr (t "bc")) (VStr (t "b")) VNone = Ok (VInt 1) /\ compile_b (t "b") VNone = Ok engine_b.
Proof. split; vm_compute; reflexivity. Qed.

Print Assumptions regexp_at_start.
Print Assumptions regexp_null.
Print Assumptions regexp_instr_anywhere.

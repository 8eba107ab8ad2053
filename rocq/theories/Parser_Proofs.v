From Verif Require Import Base Parser_Model Parser_Spec.

(** * Positions *)
Definition at_ (pre : text) : pst := mkp (length pre) (S (count_nl pre)).

Lemma count_nl_app : forall a b, count_nl (a ++ b) = count_nl a + count_nl b.
Proof. intros. unfold count_nl. rewrite filter_app, app_length. reflexivity. Qed.

Lemma count_nl_one : forall c, count_nl [c] = if N.eqb c 10 then 1 else 0.
Proof. intro c. unfold count_nl. cbn [filter]. rewrite N.eqb_sym. destruct (N.eqb c 10); reflexivity. Qed.

Lemma nth_mid : forall (pre suf : text), nth_error (pre ++ suf) (length pre) = hd_error suf.
Proof.
  induction pre as [|x pre IH]; intro suf; simpl; [destruct suf; reflexivity | apply IH].
Qed.

Lemma next_at : forall pre c r, next (pre ++ c :: r) (at_ pre) = at_ (pre ++ [c]).
Proof.
  intros. unfold next, at_. simpl idx. rewrite nth_mid. simpl.
  rewrite app_length, count_nl_app. simpl.
  f_equal; [lia|]. rewrite count_nl_one. unfold NL. destruct (N.eqb c 10); lia.
Qed.

Lemma next_end : forall pre, next pre (at_ pre) = at_ pre.
Proof.
  intros. unfold next, at_. simpl idx.
  rewrite (proj2 (nth_error_None pre (length pre))); auto.
Qed.

Lemma slice_mid : forall pre suf n, slice (pre ++ suf) (length pre) (length pre + n) = firstn n suf.
Proof.
  intros. unfold slice. replace (length pre + n - length pre) with n by lia.
  f_equal. rewrite skipn_app, Nat.sub_diag. rewrite skipn_all. reflexivity.
Qed.

Lemma slice_pp : forall p1 p2 suf, slice ((p1 ++ p2) ++ suf) (length p1) (length (p1 ++ p2)) = p2.
Proof.
  intros. rewrite <- app_assoc. rewrite app_length.
  rewrite slice_mid. rewrite firstn_app, Nat.sub_diag. simpl.
  rewrite firstn_all, app_nil_r. reflexivity.
Qed.

(** * Backslash parity *)
Definition oddrun (pre : text) : bool := Nat.odd (leading_bs (rev pre)).

Lemma oddrun_snoc : forall pre c, oddrun (pre ++ [c]) = (c =? 92)%N && negb (oddrun pre).
Proof.
  intros. unfold oddrun. rewrite rev_app_distr. simpl.
  destruct (c =? 92)%N; [|reflexivity].
  rewrite Nat.odd_succ, <- Nat.negb_odd. reflexivity.
Qed.

Lemma back_val : forall pre suf,
  back (pre ++ suf) (length pre) = (Z.of_nat (length pre) - 1 - Z.of_nat (leading_bs (rev pre)))%Z.
Proof.
  intro pre. induction pre as [|c pre IH] using rev_ind; intro suf; [reflexivity|].
  rewrite app_length. cbn [length]. rewrite Nat.add_1_r. cbn [back].
  rewrite <- app_assoc. cbn [app]. rewrite nth_mid. cbn [hd_error].
  rewrite rev_app_distr. cbn [rev app leading_bs].
  unfold BSL. destruct (c =? 92)%N.
  - rewrite IH. lia.
  - lia.
Qed.

Lemma back_parity : forall pre suf,
  negb (Z.eqb (Z.modulo (Z.of_nat (length pre) - back (pre ++ suf) (length pre) + 1) 2) 0) = oddrun pre.
Proof.
  intros. rewrite back_val. unfold oddrun.
  replace (Z.of_nat (length pre) - (Z.of_nat (length pre) - 1 - Z.of_nat (leading_bs (rev pre))) + 1)%Z
    with (Z.of_nat (leading_bs (rev pre)) + 1 * 2)%Z by lia.
  rewrite Z.mod_add by lia.
  rewrite Zmod_odd. set (n := leading_bs (rev pre)).
  assert (E : Z.odd (Z.of_nat n) = Nat.odd n).
  { induction n as [|n IHn]; [reflexivity|].
    rewrite Nat2Z.inj_succ, Z.odd_succ, Nat.odd_succ.
    rewrite <- Z.negb_odd, <- Nat.negb_odd, IHn. reflexivity. }
  rewrite E. destruct (Nat.odd n); reflexivity.
Qed.

(** * Quoted parts *)
Lemma skip_loop_spec : forall suf pre q fuel, length suf < fuel ->
  (exists body r, suf = body ++ r /\ body <> [] /\
     skip_loop fuel (pre ++ suf) q (at_ pre) = Done (at_ (pre ++ body)) tt /\
     classify (MQuote q (oddrun pre)) suf =
       (repeat Quoted (length body) ++ fst (classify MCode r), snd (classify MCode r)))
  \/ (skip_loop fuel (pre ++ suf) q (at_ pre) = Eof (at_ (pre ++ suf)) /\
      classify (MQuote q (oddrun pre)) suf = (repeat Quoted (length suf), false)).
Proof.
  induction suf as [|c suf IH]; intros pre q fuel Hf; (destruct fuel as [|fuel]; [simpl in Hf; lia|]).
  - right. rewrite app_nil_r. cbn [skip_loop]. simpl idx.
    rewrite (proj2 (nth_error_None pre (length pre))) by auto.
    rewrite next_end. split; reflexivity.
  - cbn [skip_loop]. simpl idx. rewrite nth_mid. cbn [hd_error].
    rewrite back_parity. rewrite next_at.
    assert (Hstep : pre ++ c :: suf = (pre ++ [c]) ++ suf) by (rewrite <- app_assoc; reflexivity).
    assert (Hf' : length suf < fuel) by (simpl in Hf; lia).
    cbn [classify].
    destruct (N.eqb c q) eqn:Ecq; cbn [negb andb].
    + destruct (oddrun pre) eqn:Eo; cbn [negb andb].
      * rewrite Hstep. destruct (IH (pre ++ [c]) q fuel Hf') as [(body & r & H1 & H2 & H3 & H4)|[H3 H4]];
        rewrite oddrun_snoc, Eo, Bool.andb_false_r in H4; [left|right].
        -- exists (c :: body), r. subst suf. rewrite andb_false_r. rewrite H4. rewrite H3.
           rewrite <- app_assoc. repeat split; try discriminate.
        -- rewrite andb_false_r. rewrite H3, H4. split; reflexivity.
      * left. exists [c], suf. repeat split; discriminate.
    + rewrite Hstep. destruct (IH (pre ++ [c]) q fuel Hf') as [(body & r & H1 & H2 & H3 & H4)|[H3 H4]];
        rewrite oddrun_snoc in H4; [left|right].
      * exists (c :: body), r. subst suf. rewrite H4, H3. rewrite <- app_assoc.
        repeat split; discriminate.
      * rewrite H3, H4. split; reflexivity.
Qed.

Lemma oddrun_quote : forall pre q, (q =? 92)%N = false -> oddrun (pre ++ [q]) = false.
Proof. intros pre q H. rewrite oddrun_snoc, H. reflexivity. Qed.

Lemma skip_escape_spec : forall suf pre q fuel, length suf < fuel -> (q =? 92)%N = false ->
  (exists body r, suf = body ++ r /\ 
     skip_escape fuel (pre ++ q :: suf) q (at_ pre) = Done (at_ (pre ++ q :: body)) tt /\
     classify (MQuote q false) suf =
       (repeat Quoted (length body) ++ fst (classify MCode r), snd (classify MCode r)))
  \/ (skip_escape fuel (pre ++ q :: suf) q (at_ pre) = Eof (at_ (pre ++ q :: suf)) /\
      classify (MQuote q false) suf = (repeat Quoted (length suf), false)).
Proof.
  intros suf pre q fuel Hf Hq. unfold skip_escape. rewrite next_at.
  assert (Hstep : forall x, pre ++ q :: x = (pre ++ [q]) ++ x)
    by (intro x; rewrite <- app_assoc; reflexivity).
  rewrite Hstep.
  destruct (skip_loop_spec suf (pre ++ [q]) q fuel Hf) as [(body & r & H1 & H2 & H3 & H4)|[H3 H4]];
    rewrite oddrun_quote in H4 by assumption; [left|right].
  - exists body, r. rewrite (Hstep body). split; [exact H1|]. split; assumption.
  - auto.
Qed.

(** ** The closing quote, declaratively *)
Definition closes_after (pre : text) (q : N) (s : text) (i : nat) : Prop :=
  nth_error s i = Some q /\ oddrun (pre ++ firstn i s) = false.

Lemma skip_loop_closes : forall suf pre q fuel, length suf < fuel ->
  (exists i, closes_after pre q suf i /\ (forall j, j < i -> ~ closes_after pre q suf j) /\
     skip_loop fuel (pre ++ suf) q (at_ pre) = Done (at_ (pre ++ firstn (S i) suf)) tt)
  \/ ((forall i, ~ closes_after pre q suf i) /\
      skip_loop fuel (pre ++ suf) q (at_ pre) = Eof (at_ (pre ++ suf))).
Proof.
  induction suf as [|c suf IH]; intros pre q fuel Hf; (destruct fuel as [|fuel]; [simpl in Hf; lia|]).
  - right. split.
    + intros i [H _]. destruct i; discriminate.
    + rewrite app_nil_r. cbn [skip_loop]. simpl idx.
      rewrite (proj2 (nth_error_None pre (length pre))) by auto. rewrite next_end. reflexivity.
  - cbn [skip_loop]. simpl idx. rewrite nth_mid. cbn [hd_error]. rewrite back_parity, next_at.
    assert (Hstep : forall x, pre ++ c :: x = (pre ++ [c]) ++ x)
      by (intro x; rewrite <- app_assoc; reflexivity).
    assert (Hf' : length suf < fuel) by (simpl in Hf; lia).
    assert (HS : forall i, closes_after pre q (c :: suf) (S i) <-> closes_after (pre ++ [c]) q suf i).
    { intro i. unfold closes_after. cbn [nth_error firstn]. rewrite (Hstep (firstn i suf)). tauto. }
    assert (H0 : closes_after pre q (c :: suf) 0 <-> (c = q /\ oddrun pre = false)).
    { unfold closes_after. cbn [nth_error firstn]. rewrite app_nil_r.
      split; intros [A B]; split; auto; congruence. }
    destruct (N.eqb c q && negb (oddrun pre)) eqn:E.
    + apply andb_true_iff in E as [E1 E2]. apply N.eqb_eq in E1. apply negb_true_iff in E2. subst c.
      rewrite N.eqb_refl, E2. cbn [negb]. left. exists 0. split; [|split].
      * apply H0. auto.
      * intros; lia.
      * reflexivity.
    + assert (Hn0 : ~ closes_after pre q (c :: suf) 0).
      { intro A. apply H0 in A as [A B]. subst c. rewrite N.eqb_refl, B in E. discriminate. }
      assert (R : (if negb (N.eqb c q) then skip_loop fuel (pre ++ c :: suf) q (at_ (pre ++ [c]))
                   else if oddrun pre then skip_loop fuel (pre ++ c :: suf) q (at_ (pre ++ [c]))
                        else Done (at_ (pre ++ [c])) tt)
                  = skip_loop fuel ((pre ++ [c]) ++ suf) q (at_ (pre ++ [c]))).
      { rewrite Hstep. destruct (N.eqb c q); cbn [negb andb] in *; auto.
        destruct (oddrun pre); cbn in *; auto. discriminate. }
      rewrite R. destruct (IH (pre ++ [c]) q fuel Hf') as [(i & A & B & C)|[A C]]; [left|right].
      * exists (S i). split; [apply HS; exact A|]. split.
        -- intros [|j] Hj; [exact Hn0|]. rewrite HS. apply B. lia.
        -- rewrite C. rewrite <- Hstep. reflexivity.
      * split.
        -- intros [|i]; [exact Hn0|]. rewrite HS. apply A.
        -- rewrite C, <- Hstep. reflexivity.
Qed.

Lemma closes_after_quote : forall pre q suf i, (q =? 92)%N = false ->
  closes_after (pre ++ [q]) q suf i <-> closes q suf i.
Proof.
  intros pre q suf i Hq. unfold closes_after, closes.
  replace (oddrun ((pre ++ [q]) ++ firstn i suf)) with (oddrun (firstn i suf)).
  - unfold oddrun. rewrite <- Nat.negb_odd. destruct (Nat.odd _); simpl; intuition congruence.
  - generalize (firstn i suf). intro l. induction l as [|c l IH] using rev_ind.
    + rewrite app_nil_r, oddrun_snoc, Hq. reflexivity.
    + rewrite app_assoc, !oddrun_snoc, IH. reflexivity.
Qed.

Lemma skip_escape_closes : forall sql start q fuel,
  nth_error sql (idx start) = Some q -> (q =? 92)%N = false ->
  lno start = S (count_nl (firstn (idx start) sql)) -> length sql < fuel ->
  let rest := skipn (S (idx start)) sql in
  (exists i, closes q rest i /\ (forall j, j < i -> ~ closes q rest j) /\
     exists l, skip_escape fuel sql q start = Done (mkp (idx start + i + 2) l) tt)
  \/ ((forall i, ~ closes q rest i) /\ exists s, skip_escape fuel sql q start = Eof s).
Proof.
  intros sql [a l] q fuel Hq Hb Hl Hf rest. cbn [idx lno] in *.
  apply nth_error_split in Hq as (pre & suf & E & Ha).
  assert (Hrest : rest = suf).
  { unfold rest. rewrite E, <- Ha. rewrite skipn_app.
    rewrite skipn_all2 by lia. replace (S (length pre) - length pre) with 1 by lia. reflexivity. }
  assert (Hst : mkp a l = at_ pre).
  { unfold at_. rewrite Ha. f_equal. rewrite Hl. do 2 f_equal.
    rewrite E, <- Ha, firstn_app, Nat.sub_diag, firstn_all, app_nil_r. reflexivity. }
  rewrite Hrest, Hst. unfold skip_escape. rewrite E, next_at.
  assert (Hstep : pre ++ q :: suf = (pre ++ [q]) ++ suf) by (rewrite <- app_assoc; reflexivity).
  rewrite Hstep.
  assert (Hf' : length suf < fuel) by (rewrite E, app_length in Hf; simpl in Hf; lia).
  destruct (skip_loop_closes suf (pre ++ [q]) q fuel Hf') as [(i & A & B & C)|[A C]]; [left|right].
  - exists i. split; [|split].
    + apply closes_after_quote in A; auto.
    + intros j Hj K. apply (B j Hj). apply closes_after_quote; auto.
    + rewrite C. exists (S (count_nl ((pre ++ [q]) ++ firstn (S i) suf))).
      unfold at_. f_equal. f_equal. rewrite !app_length. cbn [length].
      rewrite firstn_length_le; [lia|].
      destruct A as [A _]. assert (i < length suf) by (apply nth_error_Some; congruence). lia.
  - split.
    + intros i K. apply (A i). apply closes_after_quote; auto.
    + eexists. exact C.
Qed.

(** * read_util moves forward *)
Lemma skip_escape_fwd : forall suf pre q fuel, length suf < fuel ->
  (exists body r, suf = body ++ r /\
     skip_escape fuel (pre ++ q :: suf) q (at_ pre) = Done (at_ (pre ++ q :: body)) tt)
  \/ skip_escape fuel (pre ++ q :: suf) q (at_ pre) = Eof (at_ (pre ++ q :: suf)).
Proof.
  intros suf pre q fuel Hf. unfold skip_escape. rewrite next_at.
  assert (Hstep : forall x, pre ++ q :: x = (pre ++ [q]) ++ x)
    by (intro x; rewrite <- app_assoc; reflexivity).
  rewrite Hstep.
  destruct (skip_loop_spec suf (pre ++ [q]) q fuel Hf) as [(body & r & H1 & H2 & H3 & H4)|[H3 H4]]; [left|right].
  - exists body, r. rewrite (Hstep body). split; [exact H1|]. assumption.
  - auto.
Qed.

Lemma read_util_fwd : forall n suf pre cs esc start fuel, length suf <= n -> length suf < fuel ->
  (exists body r v, suf = body ++ r /\ r <> [] /\
     read_util_loop fuel (pre ++ suf) cs esc start (at_ pre) = Done (at_ (pre ++ body)) v)
  \/ read_util_loop fuel (pre ++ suf) cs esc start (at_ pre) = Eof (at_ (pre ++ suf)).
Proof.
  induction n as [|n IH]; intros suf pre cs esc start fuel Hn Hf;
    (destruct fuel as [|fuel]; [lia|]); (destruct suf as [|c suf];
    [ right; cbn [read_util_loop]; simpl idx; rewrite app_nil_r;
      rewrite (proj2 (nth_error_None pre (length pre))) by auto; reflexivity |]); [simpl in Hn; lia|].
  cbn [read_util_loop]. simpl idx. rewrite nth_mid. cbn [hd_error].
  simpl in Hn, Hf.
  destruct (in_chars c esc).
  - destruct (@skip_escape_fwd suf pre c fuel ltac:(lia)) as [(body & r & E & H)|H]; rewrite H.
    + subst suf. rewrite app_length in *.
      assert (S1 : pre ++ c :: body ++ r = (pre ++ c :: body) ++ r) by (rewrite <- app_assoc; reflexivity).
      rewrite S1.
      destruct (IH r (pre ++ c :: body) cs esc start fuel ltac:(lia) ltac:(lia)) as [(b2 & r2 & v & E2 & N2 & H2)|H2];
        rewrite H2; [left|right; reflexivity].
      exists (c :: body ++ b2), r2, v. subst r. split; [simpl; rewrite app_assoc; reflexivity|].
      split; auto. rewrite <- app_assoc. reflexivity.
    + right. reflexivity.
  - destruct (negb _).
    + rewrite next_at. assert (S1 : pre ++ c :: suf = (pre ++ [c]) ++ suf) by (rewrite <- app_assoc; reflexivity).
      rewrite S1.
      destruct (IH suf (pre ++ [c]) cs esc start fuel ltac:(lia) ltac:(lia)) as [(b2 & r2 & v & E2 & N2 & H2)|H2];
        rewrite H2; [left|right; reflexivity].
      exists (c :: b2), r2, v. subst suf. repeat split; auto. rewrite <- app_assoc. reflexivity.
    + left. exists [], (c :: suf). eexists. rewrite app_nil_r. repeat split. discriminate.
Qed.

(** * Every script: segments are verbatim, ordered, disjoint; the parser always stops *)
Lemma firstn_pre : forall (pre suf : text), firstn (length pre) (pre ++ suf) = pre.
Proof. intros. rewrite firstn_app, Nat.sub_diag, firstn_all, app_nil_r. reflexivity. Qed.

Definition start_ok (isalpha : N -> bool) (sql : text) (o line p : nat) (start : option nat) : Prop :=
  match start with
  | None => True
  | Some a => o <= a /\ a < p /\ line = S (count_nl (firstn a sql)) /\
              exists c, nth_error sql a = Some c /\ isalpha c = true
  end.

Lemma start_ok_mono : forall al sql o line p p' start, p <= p' ->
  start_ok al sql o line p start -> start_ok al sql o line p' start.
Proof.
  intros al sql o line p p' [a|] Hp; simpl; auto. intros (A & B & C & D). repeat split; auto; lia.
Qed.

Lemma split_loop_placed : forall al n suf pre o segs line start fuel,
  length suf <= n -> S (length suf) < fuel -> o <= length pre ->
  start_ok al (pre ++ suf) o line (length pre) start ->
  (exists s segs2, split_loop al fuel (pre ++ suf) segs line start (at_ pre) = Done s (segs ++ segs2)
     /\ placed al (pre ++ suf) o segs2)
  \/ (exists s, split_loop al fuel (pre ++ suf) segs line start (at_ pre) = Eof s).
Proof.
  intro al. induction n as [|n IH]; intros suf pre o segs line start fuel Hn Hf Ho Hst;
    (destruct fuel as [|fuel]; [lia|]).
  - destruct suf; [|simpl in Hn; lia]. left. cbn [split_loop]. simpl idx. rewrite app_nil_r in *.
    rewrite (proj2 (nth_error_None pre (length pre))) by auto.
    destruct start as [a|].
    + destruct Hst as (A & B & C & c & D & E).
      rewrite (proj2 (Nat.ltb_lt _ _) B). eexists; eexists; split; [reflexivity|].
      eapply placed_cons with (b := length pre) (c := c); eauto. constructor.
    + exists (at_ pre), []. rewrite app_nil_r. split; auto. constructor.
  - destruct suf as [|c suf].
    { apply (IH [] pre); simpl in *; auto; lia. }
    simpl in Hn, Hf.
    cbn [split_loop]. simpl idx. rewrite nth_mid. cbn [hd_error].
    (* generic continuation after consuming [c :: body] *)
    assert (K : forall body r segs' line' start' o', suf = body ++ r -> 
              o' <= length (pre ++ c :: body) ->
              start_ok al (pre ++ c :: suf) o' line' (length (pre ++ c :: body)) start' ->
              (exists s segs2, split_loop al fuel (pre ++ c :: suf) segs' line' start' (at_ (pre ++ c :: body))
                 = Done s (segs' ++ segs2) /\ placed al (pre ++ c :: suf) o' segs2)
              \/ (exists s, split_loop al fuel (pre ++ c :: suf) segs' line' start' (at_ (pre ++ c :: body)) = Eof s)).
    { intros body r segs' line' start' o' Er Ho' Hs'. subst suf. rewrite app_length in Hn, Hf.
      assert (S1 : pre ++ c :: body ++ r = (pre ++ c :: body) ++ r) by (rewrite <- app_assoc; reflexivity).
      rewrite S1 in *. apply IH; auto; lia. }
    assert (Lp : forall body, length pre <= length (pre ++ c :: body)) by (intro; rewrite app_length; lia).
    assert (Kc : forall line' start' segs' o', o' <= S (length pre) ->
              start_ok al (pre ++ c :: suf) o' line' (S (length pre)) start' ->
              (exists s segs2, split_loop al fuel (pre ++ c :: suf) segs' line' start' (next (pre ++ c :: suf) (at_ pre))
                 = Done s (segs' ++ segs2) /\ placed al (pre ++ c :: suf) o' segs2)
              \/ (exists s, split_loop al fuel (pre ++ c :: suf) segs' line' start' (next (pre ++ c :: suf) (at_ pre)) = Eof s)).
    { intros line' start' segs' o' Ho' Hs'. rewrite next_at. apply (K [] suf); auto;
      rewrite app_length; simpl; rewrite Nat.add_1_r; auto. }
    (* read_util followed by next *)
    assert (KU : forall cs esc (keep_eof : bool),
      (exists s segs2,
        match read_util fuel (pre ++ c :: suf) cs esc (at_ pre) with
        | Done s' _ => split_loop al fuel (pre ++ c :: suf) segs line start (next (pre ++ c :: suf) s')
        | Eof s' => if keep_eof then Eof s' else split_loop al fuel (pre ++ c :: suf) segs line start (next (pre ++ c :: suf) s')
        | NoFuel => NoFuel end = Done s (segs ++ segs2) /\ placed al (pre ++ c :: suf) o segs2)
      \/ (exists s, match read_util fuel (pre ++ c :: suf) cs esc (at_ pre) with
        | Done s' _ => split_loop al fuel (pre ++ c :: suf) segs line start (next (pre ++ c :: suf) s')
        | Eof s' => if keep_eof then Eof s' else split_loop al fuel (pre ++ c :: suf) segs line start (next (pre ++ c :: suf) s')
        | NoFuel => NoFuel end = Eof s)).
    { intros cs esc ke. unfold read_util.
      destruct (@read_util_fwd (S n) (c :: suf) pre cs esc (idx (at_ pre)) fuel) as [(body & r & v & E & Nr & H)|H];
        try (simpl; lia); rewrite H.
      - destruct r as [|d r]; [congruence|].
        assert (S1 : pre ++ c :: suf = (pre ++ body) ++ d :: r) by (rewrite <- app_assoc, E; reflexivity).
        replace (next (pre ++ c :: suf) (at_ (pre ++ body))) with (at_ ((pre ++ body) ++ [d]))
          by (rewrite S1, next_at; reflexivity).
        destruct body as [|b0 body]; simpl in E; inversion E; subst.
        + rewrite app_nil_r. apply (K [] r); auto;
          [rewrite app_length; lia | eapply start_ok_mono; [|exact Hst]; auto].
        + rewrite <- app_assoc. cbn [app]. apply (K (body ++ [d]) r).
          * rewrite <- app_assoc. reflexivity.
          * rewrite app_length; lia.
          * eapply start_ok_mono; [|exact Hst]; auto.
      - destruct ke; [right; eexists; reflexivity|]. rewrite next_end.
        apply (K suf []); auto; [rewrite app_nil_r; auto | rewrite app_length; lia | ].
        eapply start_ok_mono; [|exact Hst]; auto. }
    destruct (in_chars c [QB; QD; QS]).
    { destruct (@skip_escape_fwd suf pre c fuel ltac:(lia)) as [(body & r & E & H)|H]; rewrite H.
      - apply (K body r); auto; [rewrite app_length; lia|]. eapply start_ok_mono; [|exact Hst]; auto.
      - right; eexists; reflexivity. }
    destruct (N.eqb c HASH); [exact (KU [NL] default_esc false)|].
    destruct (text_eqb _ [DASH; DASH]); [exact (KU [NL] default_esc false)|].
    destruct (text_eqb _ [SLASH; STAR]); [exact (KU [STAR; SLASH] default_esc true)|].
    destruct (N.eqb c SEMI) eqn:Es.
    { destruct start as [a|].
      - destruct Hst as (A & B & C & ca & D & E).
        rewrite (proj2 (Nat.ltb_lt _ _) B).
        destruct (Kc line None (segs ++ [(slice (pre ++ c :: suf) a (length pre), line)]) (S (length pre)))
          as [(s & segs2 & H1 & H2)|H]; simpl; auto; left.
        exists s. eexists. rewrite H1. rewrite <- app_assoc. split; [reflexivity|].
        unfold slice. apply placed_cons with (c := ca) (a := a) (b := length pre); auto.
        + left. rewrite nth_mid. simpl. f_equal. apply N.eqb_eq in Es. exact Es.
      - apply Kc; simpl; auto. }
    destruct start as [a|].
    { apply Kc; auto. eapply start_ok_mono; [|exact Hst]; auto. }
    destruct (al c) eqn:Ea.
    + apply Kc; auto. simpl. repeat split; auto.
      * rewrite firstn_pre. reflexivity.
      * exists c. rewrite nth_mid. auto.
    + apply Kc; simpl; auto.
Qed.

Lemma split_verbatim : forall al sql,
  (exists s segs, split al sql = Done s segs /\ placed al sql 0 segs) \/ (exists s, split al sql = Eof s).
Proof.
  intros al sql. unfold split.
  exact (@split_loop_placed al (length sql) sql [] 0 [] 0 None (S (S (length sql))) (le_n _) ltac:(lia) (le_n _) I).
Qed.

(** * Comments *)
Lemma plain_tl : forall x s k0 k, comments_plain_in (x :: s) (k0 :: k) -> comments_plain_in s k.
Proof. intros x s k0 k H i Hi. specialize (H (S i) Hi). exact H. Qed.

Lemma plain_app : forall a s ka k, length a = length ka ->
  comments_plain_in (a ++ s) (ka ++ k) -> comments_plain_in s k.
Proof.
  induction a as [|x a IH]; intros s ka k HL H; destruct ka as [|k0 ka]; simpl in HL; try discriminate; auto.
  apply (IH s ka k); [congruence|]. eapply plain_tl. exact H.
Qed.

Lemma line_spec : forall suf pre start fuel, length suf < fuel ->
  comments_plain_in suf (fst (classify MLine suf)) ->
  (exists body r v, suf = body ++ 10%N :: r /\
     read_util_loop fuel (pre ++ suf) [NL] default_esc start (at_ pre) = Done (at_ (pre ++ body)) v /\
     classify MLine suf = (repeat Comment (S (length body)) ++ fst (classify MCode r), snd (classify MCode r)))
  \/ (read_util_loop fuel (pre ++ suf) [NL] default_esc start (at_ pre) = Eof (at_ (pre ++ suf)) /\
      classify MLine suf = (repeat Comment (length suf), true)).
Proof.
  induction suf as [|c suf IH]; intros pre start fuel Hf Hp; (destruct fuel as [|fuel]; [simpl in Hf; lia|]).
  - right. cbn [read_util_loop]. simpl idx. rewrite app_nil_r.
    rewrite (proj2 (nth_error_None pre (length pre))) by auto. split; reflexivity.
  - cbn [read_util_loop]. simpl idx. rewrite nth_mid. cbn [hd_error].
    assert (Hc := Hp 0 eq_refl). destruct Hc as (Hc1 & Hc2 & _). simpl in Hc1, Hc2.
    assert (Hesc : in_chars c default_esc = false).
    { unfold in_chars, default_esc, QD, QS. cbn [existsb].
      destruct (N.eqb_spec c 34); [congruence|]. destruct (N.eqb_spec c 39); [congruence|]. reflexivity. }
    rewrite Hesc, slice_mid. cbn [length firstn text_eqb]. rewrite andb_true_r.
    cbn [classify] in Hp |- *. unfold NL in *.
    destruct (N.eqb_spec c 10) as [->|Hne]; cbn [negb].
    + left. exists [], suf. eexists. repeat split. rewrite app_nil_r. reflexivity.
    + rewrite next_at. apply plain_tl in Hp.
      assert (S1 : pre ++ c :: suf = (pre ++ [c]) ++ suf) by (rewrite <- app_assoc; reflexivity).
      rewrite S1.
      destruct (IH (pre ++ [c]) start fuel ltac:(simpl in Hf; lia) Hp) as [(b & r & v & E & H1 & H2)|[H1 H2]];
        rewrite H1, H2; [left|right; split; reflexivity].
      exists (c :: b), r, v. subst suf. repeat split. rewrite <- app_assoc. reflexivity.
Qed.

Lemma block_spec : forall suf pre start star fuel, length suf < fuel ->
  (star = true -> hd_error suf <> Some 47%N) ->
  comments_plain_in suf (fst (classify (MBlock star) suf)) ->
  (exists body r v, suf = body ++ 42%N :: 47%N :: r /\
     read_util_loop fuel (pre ++ suf) [STAR; SLASH] default_esc start (at_ pre) = Done (at_ (pre ++ body)) v /\
     classify (MBlock star) suf =
       (repeat Comment (length body + 2) ++ fst (classify MCode r), snd (classify MCode r)))
  \/ (read_util_loop fuel (pre ++ suf) [STAR; SLASH] default_esc start (at_ pre) = Eof (at_ (pre ++ suf)) /\
      classify (MBlock star) suf = (repeat Comment (length suf), false)).
Proof.
  induction suf as [|c suf IH]; intros pre start star fuel Hf Hh Hp; (destruct fuel as [|fuel]; [simpl in Hf; lia|]).
  - right. cbn [read_util_loop]. simpl idx. rewrite app_nil_r.
    rewrite (proj2 (nth_error_None pre (length pre))) by auto. split; reflexivity.
  - cbn [read_util_loop]. simpl idx. rewrite nth_mid. cbn [hd_error].
    assert (Hss : star && (c =? 47)%N = false).
    { destruct star; auto. simpl. apply N.eqb_neq. intro; subst c. apply (Hh eq_refl). reflexivity. }
    cbn [classify] in Hp |- *. rewrite Hss in *. cbn [fst] in Hp.
    assert (Hc := Hp 0 eq_refl). destruct Hc as (Hc1 & Hc2 & _). simpl in Hc1, Hc2.
    assert (Hesc : in_chars c default_esc = false).
    { unfold in_chars, default_esc, QD, QS. cbn [existsb].
      destruct (N.eqb_spec c 34); [congruence|]. destruct (N.eqb_spec c 39); [congruence|]. reflexivity. }
    rewrite Hesc, slice_mid.
    apply plain_tl in Hp.
    assert (S1 : pre ++ c :: suf = (pre ++ [c]) ++ suf) by (rewrite <- app_assoc; reflexivity).
    destruct ((c =? 42)%N && match suf with d :: _ => (d =? 47)%N | [] => false end) eqn:Ecd.
    + apply andb_true_iff in Ecd as [E1 E2]. apply N.eqb_eq in E1. subst c.
      destruct suf as [|d r]; [discriminate|]. apply N.eqb_eq in E2. subst d.
      cbn. left. exists [], r. eexists. repeat split. rewrite app_nil_r. reflexivity.
    + assert (Hneq : text_eqb (firstn (length [STAR; SLASH]) (c :: suf)) [STAR; SLASH] = false).
      { unfold STAR, SLASH. destruct suf as [|d r]; simpl in *.
        - rewrite andb_false_r in *. reflexivity.
        - rewrite andb_true_r. exact Ecd. }
      rewrite Hneq. cbn [negb]. rewrite next_at, S1.
      destruct (IH (pre ++ [c]) start (c =? 42)%N fuel ltac:(simpl in Hf; lia)) as [(b & r & v & E & H1 & H2)|[H1 H2]].
      * intros E42. rewrite E42 in Ecd. simpl in Ecd. destruct suf as [|d r]; simpl; [discriminate|].
        intro K. inversion K. subst d. discriminate.
      * exact Hp.
      * left. exists (c :: b), r, v. rewrite H1, H2. subst suf. repeat split. rewrite <- app_assoc. reflexivity.
      * right. rewrite H1, H2. split; reflexivity.
Qed.

(** * Simulation against the specification *)
Section Sim.
Variable al : N -> bool.
Hypothesis al_slash : al 47%N = false.

Definition txt (l : list char) : text := map (fun x : char => fst (snd x)) l.
Definition chunk (K : cls) (L : nat) (body : text) : list char :=
  combine (repeat K (length body)) (lined L body).
Definition sepfree (g : list char) : Prop := Forall (fun x => fst x <> Sep) g.

Definition rel (start : option nat) (line : nat) (g : list char) (pre : text) : Prop :=
  match start with
  | None => drop_until (starts_stmt al) g = []
  | Some a => exists p1 p2 k0 c0 r, pre = p1 ++ p2 /\ length p1 = a /\
      drop_until (starts_stmt al) g = (k0, (c0, line)) :: r /\ p2 = c0 :: txt r
  end.

Lemma drop_until_app : forall A (p : A -> bool) a b,
  drop_until p (a ++ b) = match drop_until p a with [] => drop_until p b | x :: r => (x :: r) ++ b end.
Proof.
  induction a as [|x a IH]; intro b; cbn [app drop_until]; [reflexivity|].
  destruct (p x); [reflexivity|apply IH].
Qed.

Lemma lined_app : forall a L b, lined L (a ++ b) = lined L a ++ lined (L + count_nl a) b.
Proof.
  induction a as [|c a IH]; intros L b; simpl.
  - f_equal. unfold count_nl. simpl. lia.
  - f_equal. rewrite IH. f_equal. f_equal.
    change (c :: a) with ([c] ++ a). rewrite count_nl_app, count_nl_one. destruct (N.eqb c 10); lia.
Qed.

Lemma lined_length : forall a L, length (lined L a) = length a.
Proof. induction a; intros; simpl; auto. Qed.

Lemma combine_app : forall A B (a1 : list A) (b1 : list B) a2 b2, length a1 = length b1 ->
  combine (a1 ++ a2) (b1 ++ b2) = combine a1 b1 ++ combine a2 b2.
Proof.
  induction a1 as [|x a1 IH]; destruct b1 as [|y b1]; simpl; intros; try discriminate; auto.
  f_equal. apply IH. congruence.
Qed.

Lemma combine_chunk : forall K L body r ks,
  combine (repeat K (length body) ++ ks) (lined L (body ++ r)) =
  chunk K L body ++ combine ks (lined (L + count_nl body) r).
Proof.
  intros. rewrite lined_app. rewrite combine_app; [reflexivity|].
  rewrite repeat_length, lined_length. reflexivity.
Qed.

Lemma txt_chunk : forall K body L, txt (chunk K L body) = body.
Proof.
  unfold txt, chunk. induction body as [|c body IH]; intro L; simpl; auto. f_equal. apply IH.
Qed.

Lemma chunk_sepfree : forall K body L, K <> Sep -> sepfree (chunk K L body).
Proof.
  unfold sepfree, chunk. induction body as [|c body IH]; intros L HK; simpl; constructor; auto.
Qed.

Lemma drop_chunk : forall K body L, K <> Code -> drop_until (starts_stmt al) (chunk K L body) = [].
Proof.
  unfold chunk. induction body as [|c body IH]; intros L HK; simpl; auto.
  destruct K; try congruence; simpl; apply IH; auto.
Qed.

Lemma txt_app : forall a b, txt (a ++ b) = txt a ++ txt b.
Proof. intros. apply map_app. Qed.

Lemma rel_ext : forall start line g pre K L body, K <> Code ->
  rel start line g pre -> rel start line (g ++ chunk K L body) (pre ++ body).
Proof.
  intros [a|] line g pre K L body HK; simpl.
  - intros (p1 & p2 & k0 & c0 & r & E1 & E2 & E3 & E4).
    exists p1, (p2 ++ body), k0, c0, (r ++ chunk K L body).
    rewrite drop_until_app, E3. subst. rewrite <- app_assoc. repeat split; auto.
    rewrite txt_app, txt_chunk. reflexivity.
  - intro H. rewrite drop_until_app, H. apply drop_chunk. exact HK.
Qed.

Lemma groups_sepfree : forall g r, sepfree g ->
  groups (g ++ r) = match groups r with h :: tl => (g ++ h) :: tl | [] => [g] end.
Proof.
  induction g as [|[k x] g IH]; intros r H; simpl.
  - destruct (groups r) eqn:E; auto. destruct r as [|[[] ?] r]; simpl in E; try discriminate;
    destruct (groups r); discriminate.
  - inversion H as [|? ? Hk Hg]; subst. simpl in Hk.
    destruct k; try congruence; rewrite (IH r Hg); destruct (groups r); reflexivity.
Qed.

Lemma groups_sep : forall g x r, sepfree g -> groups (g ++ (Sep, x) :: r) = g :: groups r.
Proof. intros. rewrite groups_sepfree by auto. simpl. rewrite app_nil_r. reflexivity. Qed.

Lemma groups_one : forall g, sepfree g -> groups g = [g].
Proof. intros g H. rewrite <- (app_nil_r g) at 1. rewrite groups_sepfree by auto. simpl. rewrite app_nil_r. reflexivity. Qed.

Lemma sepfree_app : forall a b, sepfree a -> sepfree b -> sepfree (a ++ b).
Proof. intros. apply Forall_app. auto. Qed.

Lemma stmt_of_rel : forall start line g pre suf, rel start line g pre ->
  stmt_of al g = match start with
                 | None => []
                 | Some a => [(slice (pre ++ suf) a (length pre), line)]
                 end.
Proof.
  intros [a|] line g pre suf; simpl; unfold stmt_of.
  - intros (p1 & p2 & k0 & c0 & r & E1 & E2 & E3 & E4). rewrite E3. subst.
    rewrite slice_pp. reflexivity.
  - intro H. rewrite H. reflexivity.
Qed.

Lemma rel_lt : forall a line g pre, rel (Some a) line g pre -> a <? length pre = true.
Proof.
  intros a line g pre (p1 & p2 & k0 & c0 & r & E1 & E2 & E3 & E4). subst.
  apply Nat.ltb_lt. rewrite app_length. simpl. lia.
Qed.

Definition goal (suf pre : text) (g : list char) (segs : list (text * nat)) (o : out (list segment)) : Prop :=
  if snd (classify MCode suf)
  then o = Done (at_ (pre ++ suf))
             (segs ++ flat_map (stmt_of al)
                (groups (g ++ combine (fst (classify MCode suf)) (lined (S (count_nl pre)) suf))))
  else exists s, o = Eof s.

Lemma repeat_snoc_eq : forall (K : cls) n, repeat K (S n) = repeat K n ++ [K].
Proof. induction n; simpl; auto. simpl in IHn. rewrite IHn at 1. reflexivity. Qed.

Lemma split_slash_step : forall f pre r segs line start, hd_error r <> Some 42%N ->
  split_loop al (S f) (pre ++ 47%N :: r) segs line start (at_ pre) =
  split_loop al f (pre ++ 47%N :: r) segs line start (at_ (pre ++ [47%N])).
Proof.
  intros f pre r segs line start Hh. cbn [split_loop]. simpl idx. rewrite nth_mid. cbn [hd_error].
  change (in_chars 47 [QB; QD; QS]) with false. change (47 =? HASH)%N with false. change (47 =? SEMI)%N with false. cbn iota.
  rewrite slice_mid.
  change (text_eqb (firstn 2 (47%N :: r)) [DASH; DASH]) with false. cbn iota.
  replace (text_eqb (firstn 2 (47%N :: r)) [SLASH; STAR]) with false.
  2:{ destruct r as [|e r]; simpl; auto. simpl in Hh.
      destruct (N.eqb_spec e 42); [subst; congruence|].
      unfold STAR. rewrite (proj2 (N.eqb_neq e 42)) by auto. reflexivity. }
  rewrite next_at. rewrite al_slash. destruct start; reflexivity.
Qed.

Lemma split_sim : forall n suf pre g segs line start fuel,
  length suf <= n -> S (length suf) < fuel -> sepfree g -> rel start line g pre ->
  comments_plain_in suf (fst (classify MCode suf)) ->
  goal suf pre g segs (split_loop al fuel (pre ++ suf) segs line start (at_ pre)).
Proof.
  induction n as [|n IH]; intros suf pre g segs line start fuel Hn Hf Hg Hr Hp;
    (destruct fuel as [|fuel]; [lia|]).
  - destruct suf; [|simpl in Hn; lia]. unfold goal. cbn [classify fst snd combine].
    cbn [split_loop]. simpl idx. rewrite app_nil_r in *.
    rewrite (proj2 (nth_error_None pre (length pre))) by auto.
    rewrite app_nil_r, groups_one by auto. cbn [flat_map]. rewrite app_nil_r.
    rewrite (stmt_of_rel _ _ _ _ [] Hr). rewrite app_nil_r.
    destruct start as [a|].
    + rewrite (rel_lt _ _ _ _ Hr). reflexivity.
    + rewrite app_nil_r. reflexivity.
  - destruct suf as [|c suf].
    { apply IH; simpl in *; auto; lia. }
    simpl in Hn, Hf.
    cbn [split_loop]. simpl idx. rewrite nth_mid. cbn [hd_error].
    (* consume a non-code chunk c :: body *)
    assert (K : forall KK body r fuel', KK <> Code -> KK <> Sep -> S (length r) < fuel' ->
        suf = body ++ r ->
        classify MCode (c :: suf) =
          (repeat KK (S (length body)) ++ fst (classify MCode r), snd (classify MCode r)) ->
        goal (c :: suf) pre g segs (split_loop al fuel' (pre ++ c :: suf) segs line start (at_ (pre ++ c :: body)))).
    { intros KK body r fuel' HK1 HK2 Hf' Er Ec. subst suf.
      assert (S1 : pre ++ c :: body ++ r = (pre ++ c :: body) ++ r) by (rewrite <- app_assoc; reflexivity).
      rewrite S1.
      assert (G := IH r (pre ++ c :: body) (g ++ chunk KK (S (count_nl pre)) (c :: body)) segs line start fuel').
      rewrite app_length in *. 
      assert (Gp : goal r (pre ++ c :: body) (g ++ chunk KK (S (count_nl pre)) (c :: body)) segs
                   (split_loop al fuel' ((pre ++ c :: body) ++ r) segs line start (at_ (pre ++ c :: body)))).
      { apply G; try lia.
        - apply sepfree_app; auto. apply chunk_sepfree; auto.
        - apply rel_ext; auto.
        - rewrite Ec in Hp. cbn [fst] in Hp.
          change (c :: body ++ r) with ((c :: body) ++ r) in Hp.
          eapply plain_app; [|exact Hp]. rewrite repeat_length. reflexivity. }
      unfold goal in *. rewrite Ec. cbn [fst snd].
      destruct (snd (classify MCode r)); auto.
      rewrite Gp. rewrite S1. f_equal. f_equal. f_equal. f_equal.
      rewrite <- app_assoc. f_equal.
      change (c :: body ++ r) with ((c :: body) ++ r).
      change (S (length body)) with (length (c :: body)).
      rewrite combine_chunk. f_equal. f_equal. f_equal. rewrite count_nl_app. reflexivity. }
    assert (HQ : in_chars c [QB; QD; QS] = is_quote c).
    { unfold in_chars, is_quote, QB, QD, QS. cbn [existsb]. rewrite orb_false_r, orb_assoc. reflexivity. }
    rewrite HQ. rewrite slice_mid.
    (* the five kinds of characters *)
    destruct (is_quote c) eqn:Eq.
    { assert (Hq92 : (c =? 92)%N = false).
      { unfold is_quote in Eq. apply N.eqb_neq. intro. subst c. discriminate. }
      destruct (skip_escape_spec suf pre c fuel ltac:(lia) Hq92) as [(body & r & E & H & Hc)|[H Hc]]; rewrite H.
      - apply (K Quoted body r); try discriminate; auto.
        + subst suf. rewrite app_length in Hf. lia.
        + cbn [classify]. rewrite Eq, Hc. reflexivity.
      - unfold goal. cbn [classify]. rewrite Eq, Hc. cbn [snd]. eexists; reflexivity. }
    assert (LINE : classify MCode (c :: suf) = (Comment :: fst (classify MLine suf), snd (classify MLine suf)) ->
              (c =? 10)%N = false ->
              goal (c :: suf) pre g segs
                match read_util fuel (pre ++ c :: suf) [NL] default_esc (at_ pre) with
                | Done s' _ | Eof s' => split_loop al fuel (pre ++ c :: suf) segs line start (next (pre ++ c :: suf) s')
                | NoFuel => NoFuel end).
    { intros Ec E10. unfold read_util.
      assert (E' : classify MLine (c :: suf) = classify MCode (c :: suf)).
      { rewrite Ec. cbn [classify]. rewrite E10. reflexivity. }
      destruct (line_spec (c :: suf) pre (idx (at_ pre)) fuel ltac:(simpl; lia)) as [(body & r & v & E & H & Hc)|[H Hc]].
      - rewrite E'. exact Hp.
      - rewrite H. destruct body as [|b0 body].
        { simpl in E. inversion E. subst c. discriminate. }
        simpl in E. assert (H2 : suf = body ++ 10%N :: r) by congruence.
        assert (b0 = c) by congruence. subst b0.
        assert (S1 : pre ++ c :: suf = (pre ++ c :: body) ++ 10%N :: r)
          by (rewrite <- app_assoc, H2; reflexivity).
        replace (next (pre ++ c :: suf) (at_ (pre ++ c :: body))) with (at_ (pre ++ c :: (body ++ [10%N]))).
        2:{ rewrite S1, next_at. rewrite <- app_assoc. reflexivity. }
        apply (K Comment (body ++ [10%N]) r); try discriminate.
        + rewrite H2, app_length in Hf. simpl in Hf. lia.
        + rewrite <- app_assoc. exact H2.
        + rewrite <- E', Hc. rewrite app_length. cbn [length]. rewrite Nat.add_1_r. reflexivity.
      - rewrite H, next_end. apply (K Comment suf []); try discriminate; auto.
        + simpl. lia.
        + rewrite app_nil_r. reflexivity.
        + rewrite <- E', Hc. simpl. rewrite app_nil_r. reflexivity. }
    unfold HASH, DASH, SLASH, STAR, SEMI in *.
    destruct (N.eqb c 35) eqn:E35.
    { apply LINE. cbn [classify]. rewrite Eq, E35. reflexivity.
      apply N.eqb_eq in E35. subst c. reflexivity. }
    assert (H2eq : forall a b, text_eqb (firstn 2 (c :: suf)) [a; b] = starts2 a b (c :: suf)).
    { intros a b. destruct suf as [|d r]; simpl.
      - rewrite andb_false_r. reflexivity.
      - rewrite andb_true_r. reflexivity. }
    rewrite !H2eq.
    destruct (starts2 45 45 (c :: suf)) eqn:E45.
    { apply LINE. cbn [classify]. rewrite Eq, E35, E45. reflexivity.
      destruct suf as [|d r]; [discriminate|]. simpl in E45. apply andb_true_iff in E45 as [E45 _].
      apply N.eqb_eq in E45. subst c. reflexivity. }
    destruct (starts2 47 42 (c :: suf)) eqn:E47.
    { destruct suf as [|d suf]; [discriminate|]. simpl in E47. apply andb_true_iff in E47 as [Ec Ed].
      apply N.eqb_eq in Ec, Ed. subst c d.
      assert (Hcl : classify MCode (47%N :: 42%N :: suf) =
                    (Comment :: Comment :: fst (classify (MBlock false) suf), snd (classify (MBlock false) suf))) by reflexivity.
      rewrite Hcl in Hp. cbn [fst] in Hp.
      assert (Hns : hd_error suf <> Some 47%N).
      { intro Hh. destruct (Hp 0 eq_refl) as (_ & _ & H3). destruct (H3 eq_refl) as [H3a _].
        destruct suf as [|e suf]; simpl in Hh; [discriminate|]. inversion Hh; subst. apply H3a. reflexivity. }
      destruct fuel as [|[|fuel]]; [lia|lia|].
      assert (R2 : read_util (S (S fuel)) (pre ++ 47%N :: 42%N :: suf) [42%N; 47%N] default_esc (at_ pre)
                 = read_util_loop fuel ((pre ++ [47; 42]%N) ++ suf) [STAR; SLASH] default_esc (idx (at_ pre)) (at_ (pre ++ [47; 42]%N))).
      { unfold read_util. cbn [read_util_loop]. simpl idx. rewrite nth_mid. cbn [hd_error].
        change (in_chars 47 default_esc) with false. cbn iota. rewrite slice_mid.
        change (text_eqb (firstn (length [42%N; 47%N]) (47%N :: 42%N :: suf)) [42%N; 47%N]) with false. cbn [negb].
        rewrite next_at. simpl idx.
        assert (S1 : pre ++ 47%N :: 42%N :: suf = (pre ++ [47%N]) ++ 42%N :: suf) by (rewrite <- app_assoc; reflexivity).
        rewrite S1, nth_mid. cbn [hd_error].
        change (in_chars 42 default_esc) with false. cbn iota. rewrite slice_mid.
        replace (text_eqb (firstn (length [42%N; 47%N]) (42%N :: suf)) [42%N; 47%N]) with false.
        2:{ destruct suf as [|e suf]; simpl; auto. simpl in Hns.
            destruct (N.eqb_spec e 47); [subst; congruence|reflexivity]. }
        cbn [negb]. rewrite next_at.
        rewrite <- !app_assoc. reflexivity. }
      rewrite R2. clear R2.
      destruct (block_spec suf (pre ++ [47; 42]%N) (idx (at_ pre)) false fuel ltac:(simpl in Hf; lia) ltac:(discriminate))
        as [(body & r & v & E & H & Hc)|[H Hc]].
      - do 2 apply plain_tl in Hp. exact Hp.
      - rewrite H.
        set (b2 := 42%N :: body ++ [42; 47]%N).
        assert (S2 : 42%N :: suf = b2 ++ r) by (unfold b2; subst suf; simpl; rewrite <- app_assoc; reflexivity).
        assert (S1 : pre ++ 47%N :: 42%N :: suf = ((pre ++ [47; 42]%N) ++ body) ++ 42%N :: 47%N :: r)
          by (subst suf; rewrite <- !app_assoc; reflexivity).
        rewrite S1 at 1 2. rewrite next_at.
        assert (S3 : forall x, (((pre ++ [47%N; 42%N]) ++ body) ++ [42%N]) ++ 47%N :: x = (((pre ++ [47; 42]%N) ++ body) ++ 42%N :: 47%N :: x))
          by (intro x; rewrite <- !app_assoc; reflexivity).
        (* the '/' that closes the comment is read as an ordinary character *)
        rewrite <- S3. rewrite split_slash_step.
        2:{ intro Hh. destruct r as [|e r]; simpl in Hh; [discriminate|]. inversion Hh; subst e.
            assert (Hi : nth_error (Comment :: Comment :: fst (classify (MBlock false) suf)) (2 + length body) = Some Comment).
            { simpl. rewrite Hc. cbn [fst]. rewrite nth_error_app1 by (rewrite repeat_length; lia).
              apply nth_error_repeat. lia. }
            assert (Hi' : nth_error (Comment :: Comment :: fst (classify (MBlock false) suf)) (S (2 + length body)) = Some Comment).
            { change (nth_error (fst (classify (MBlock false) suf)) (S (length body)) = Some Comment).
              rewrite Hc. cbn [fst]. 
              rewrite nth_error_app1 by (rewrite repeat_length; lia).
              apply nth_error_repeat. lia. }
            destruct (Hp _ Hi) as (_ & _ & H3). destruct (H3 Hi') as [_ H3b]. apply H3b.
            change (2 + length body) with (S (S (length body))). cbn [skipn]. subst suf.
            rewrite skipn_app, skipn_all, Nat.sub_diag. reflexivity. }
        rewrite S3, <- S1.
        replace ((((pre ++ [47%N; 42%N]) ++ body) ++ [42%N]) ++ [47%N]) with (pre ++ 47%N :: b2)
          by (unfold b2; rewrite <- !app_assoc; reflexivity).
        apply (K Comment b2 r); try discriminate; auto.
        + subst suf. simpl in Hf. rewrite app_length in Hf. simpl in Hf. lia.
        + rewrite Hcl, Hc. unfold b2. cbn [fst snd length]. rewrite app_length. reflexivity.
      - rewrite H. unfold goal. rewrite Hcl, Hc. cbn [snd]. eexists; reflexivity. }
    destruct (N.eqb c 59) eqn:E59.
    { assert (Hcl : classify MCode (c :: suf) = (Sep :: fst (classify MCode suf), snd (classify MCode suf))).
      { cbn [classify]. rewrite Eq, E35, E45, E47, E59. reflexivity. }
      rewrite next_at.
      assert (S1 : pre ++ c :: suf = (pre ++ [c]) ++ suf) by (rewrite <- app_assoc; reflexivity).
      rewrite Hcl in Hp. cbn [fst] in Hp. apply plain_tl in Hp.
      assert (T : goal (c :: suf) pre g segs
                (split_loop al fuel (pre ++ c :: suf)
                   (segs ++ stmt_of al g) line None (at_ (pre ++ [c])))).
      { assert (G := IH suf (pre ++ [c]) [] (segs ++ stmt_of al g) line None fuel ltac:(lia) ltac:(lia) (Forall_nil _) eq_refl Hp).
        unfold goal in *. rewrite Hcl. cbn [fst snd]. rewrite S1.
        destruct (snd (classify MCode suf)); auto.
        rewrite G. f_equal. rewrite <- app_assoc. f_equal. cbn [lined combine].
        rewrite groups_sep by auto. cbn [flat_map]. f_equal. cbn [app]. f_equal. f_equal. f_equal. f_equal.
        rewrite count_nl_app, count_nl_one. destruct (N.eqb c 10); lia. }
      rewrite (stmt_of_rel _ _ _ _ (c :: suf) Hr) in T.
      destruct start as [a|].
      - rewrite (rel_lt _ _ _ _ Hr). exact T.
      - rewrite app_nil_r in T. exact T. }
    (* an ordinary character *)
    assert (Hcl : classify MCode (c :: suf) = (Code :: fst (classify MCode suf), snd (classify MCode suf))).
    { cbn [classify]. rewrite Eq, E35, E45, E47, E59. reflexivity. }
    rewrite Hcl in Hp. cbn [fst] in Hp. apply plain_tl in Hp.
    assert (S1 : forall x, pre ++ c :: x = (pre ++ [c]) ++ x) by (intro; rewrite <- app_assoc; reflexivity).
    rewrite next_at.
    assert (T : forall line' start', rel start' line' (g ++ [(Code, (c, S (count_nl pre)))]) (pre ++ [c]) ->
        goal (c :: suf) pre g segs
                (split_loop al fuel (pre ++ c :: suf) segs line' start' (at_ (pre ++ [c])))).
    { intros line' start' Hr'.
      assert (G := IH suf (pre ++ [c]) (g ++ [(Code, (c, S (count_nl pre)))]) segs line' start' fuel ltac:(lia) ltac:(lia)).
      assert (Hsf : sepfree (g ++ [(Code, (c, S (count_nl pre)))])).
      { apply sepfree_app; auto. constructor; [discriminate|constructor]. }
      specialize (G Hsf Hr' Hp). unfold goal in *. rewrite Hcl. cbn [fst snd]. rewrite S1.
      destruct (snd (classify MCode suf)); auto.
      rewrite G. do 4 f_equal. cbn [lined combine]. rewrite <- app_assoc. cbn [app]. do 4 f_equal.
      rewrite count_nl_app, count_nl_one. destruct (N.eqb c 10); lia. }
    destruct start as [a|].
    + apply T. destruct Hr as (p1 & p2 & k0 & c0 & r & F1 & F2 & F3 & F4).
      exists p1, (p2 ++ [c]), k0, c0, (r ++ [(Code, (c, S (count_nl pre)))]).
      rewrite drop_until_app, F3. subst. rewrite <- app_assoc. repeat split; auto.
      rewrite txt_app. reflexivity.
    + simpl in Hr. destruct (al c) eqn:Eal.
      * apply T. exists pre, [c], Code, c, []. rewrite drop_until_app, Hr. simpl. rewrite Eal. auto.
      * apply T. simpl. rewrite drop_until_app, Hr. simpl. rewrite Eal. reflexivity.
Qed.

Lemma split_correct : forall sql, comments_plain sql ->
  if closed sql then exists s, split al sql = Done s (statements al sql)
  else exists s, split al sql = Eof s.
Proof.
  intros sql Hp.
  assert (G := split_sim (length sql) sql [] [] [] 0 None (S (S (length sql))) (le_n _) ltac:(lia) (Forall_nil _) eq_refl Hp).
  unfold goal in G. unfold closed, statements, classes, split.
  change (mkp 0 1) with (at_ []). cbn [app] in G.
  destruct (snd (classify MCode sql)); eauto.
Qed.
End Sim.

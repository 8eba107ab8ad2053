From Verif Require Import Base Parser_Model Parser_Spec Parser_Proofs Mapping_Model.

(** * read_util on a single target character is find_outside *)
Lemma skip_find : forall qs tg suf pre q fuel, length suf < fuel ->
  (exists body r, suf = body ++ r /\
     skip_loop fuel (pre ++ suf) q (at_ pre) = Done (at_ (pre ++ body)) tt /\
     find_outside qs tg (Some (q, oddrun pre)) suf =
       option_map (plus (length body)) (find_outside qs tg None r))
  \/ (skip_loop fuel (pre ++ suf) q (at_ pre) = Eof (at_ (pre ++ suf)) /\
      find_outside qs tg (Some (q, oddrun pre)) suf = None).
Proof.
  intros qs tg. induction suf as [|c suf IH]; intros pre q fuel Hf; (destruct fuel as [|fuel]; [simpl in Hf; lia|]).
  - right. rewrite app_nil_r. cbn [skip_loop]. simpl idx.
    rewrite (proj2 (nth_error_None pre (length pre))) by auto. rewrite next_end. split; reflexivity.
  - cbn [skip_loop]. simpl idx. rewrite nth_mid. cbn [hd_error]. rewrite back_parity, next_at.
    assert (Hstep : forall x, pre ++ c :: x = (pre ++ [c]) ++ x) by (intro; rewrite <- app_assoc; reflexivity).
    assert (Hf' : length suf < fuel) by (simpl in Hf; lia).
    assert (HH : forall o, option_map S (option_map (plus o) (find_outside qs tg None [])) = None) by reflexivity.
    assert (OM : forall (o : option nat) n, option_map S (option_map (plus n) o) = option_map (plus (S n)) o)
      by (intros [o|] n; reflexivity).
    cbn [find_outside].
    destruct (N.eqb c q && negb (oddrun pre)) eqn:E.
    + apply andb_true_iff in E as [E1 E2]. apply negb_true_iff in E2. rewrite E1, E2. cbn [negb].
      left. exists [c], suf. split; [reflexivity|]. split; [reflexivity|].
      destruct (find_outside qs tg None suf); reflexivity.
    + assert (R : (if negb (N.eqb c q) then skip_loop fuel (pre ++ c :: suf) q (at_ (pre ++ [c]))
                   else if oddrun pre then skip_loop fuel (pre ++ c :: suf) q (at_ (pre ++ [c]))
                        else Done (at_ (pre ++ [c])) tt)
                  = skip_loop fuel ((pre ++ [c]) ++ suf) q (at_ (pre ++ [c]))).
      { rewrite Hstep. destruct (N.eqb c q); cbn [negb andb] in *; auto.
        destruct (oddrun pre); cbn in *; auto. discriminate. }
      rewrite R. rewrite <- oddrun_snoc.
      destruct (IH (pre ++ [c]) q fuel Hf') as [(body & r & H1 & H2 & H3)|[H2 H3]]; [left|right].
      * exists (c :: body), r. rewrite (Hstep body). split; [subst suf; reflexivity|].
        split; [exact H2|]. rewrite H3, OM. reflexivity.
      * split; [rewrite H2, (Hstep suf); reflexivity|]. rewrite H3. reflexivity.
Qed.

Lemma read_util_find : forall qs tg n suf pre start fuel,
  length suf <= n -> length suf < fuel -> Forall (fun q => (q =? 92)%N = false) qs ->
  read_util_loop fuel (pre ++ suf) [tg] qs start (at_ pre) =
  match find_outside qs tg None suf with
  | Some i => Done (at_ (pre ++ firstn i suf))
                   (start, (length pre + i)%nat, slice (pre ++ suf) start (length pre + i))
  | None => Eof (at_ (pre ++ suf))
  end.
Proof.
  intros qs tg. induction n as [|n IH]; intros suf pre start fuel Hn Hf HQ;
    (destruct fuel as [|fuel]; [lia|]); (destruct suf as [|c suf];
    [ cbn [read_util_loop find_outside]; simpl idx; rewrite app_nil_r;
      rewrite (proj2 (nth_error_None pre (length pre))) by auto; reflexivity |]); [simpl in Hn; lia|].
  cbn [read_util_loop find_outside]. simpl idx. rewrite nth_mid. cbn [hd_error].
  simpl in Hn, Hf. unfold in_chars.
  destruct (existsb (N.eqb c) qs) eqn:Eq.
  - assert (Hc : (c =? 92)%N = false).
    { apply existsb_exists in Eq as (q & Hin & Hcq). apply N.eqb_eq in Hcq. subst q.
      rewrite Forall_forall in HQ. apply HQ. exact Hin. }
    unfold skip_escape. rewrite next_at.
    assert (Hstep : forall x, pre ++ c :: x = (pre ++ [c]) ++ x) by (intro; rewrite <- app_assoc; reflexivity).
    rewrite Hstep.
    destruct (skip_find qs tg suf (pre ++ [c]) c fuel ltac:(lia)) as [(body & r & H1 & H2 & H3)|[H2 H3]];
      rewrite oddrun_quote in H3 by assumption; rewrite H2, H3.
    + subst suf. rewrite app_length in *.
      assert (S1 : (pre ++ [c]) ++ body ++ r = ((pre ++ [c]) ++ body) ++ r) by (rewrite <- !app_assoc; reflexivity).
      rewrite S1, IH by (auto; lia).
      destruct (find_outside qs tg None r) as [i|]; simpl.
      * f_equal.
        -- f_equal. rewrite firstn_app. replace (length body + i - length body) with i by lia.
           rewrite (firstn_all2 body) by lia. rewrite <- !app_assoc. reflexivity.
        -- replace (length ((pre ++ [c]) ++ body) + i) with (length pre + S (length body + i))
             by (rewrite !app_length; simpl; lia). rewrite <- app_assoc. reflexivity.
      * reflexivity.
    + reflexivity.
  - rewrite slice_mid. cbn [length firstn text_eqb]. rewrite andb_true_r.
    destruct (c =? tg)%N; cbn [negb].
    + f_equal.
      * f_equal. simpl. rewrite app_nil_r. reflexivity.
      * replace (length pre + 1 - 1) with (length pre + 0) by lia. reflexivity.
    + rewrite next_at.
      assert (S1 : pre ++ c :: suf = (pre ++ [c]) ++ suf) by (rewrite <- app_assoc; reflexivity).
      rewrite S1, IH by (auto; lia).
      destruct (find_outside qs tg None suf) as [i|]; simpl.
      * f_equal.
        -- f_equal. rewrite <- !app_assoc. reflexivity.
        -- replace (length (pre ++ [c]) + i) with (length pre + S i) by (rewrite !app_length; simpl; lia).
           rewrite <- app_assoc. reflexivity.
      * reflexivity.
Qed.

(** * check_complete *)
Lemma find_outside_nil_head : forall qs tg m s i, find_outside qs tg m s = Some i -> nth_error s i = Some tg.
Proof.
  intros qs tg m s. revert m. induction s as [|c s IH]; intros m i; cbn [find_outside]; [discriminate|].
  assert (G : forall m' , option_map S (find_outside qs tg m' s) = Some i -> nth_error (c :: s) i = Some tg).
  { intros m' H. destruct (find_outside qs tg m' s) as [j|] eqn:E; simpl in H; [|discriminate].
    inversion H; subst. simpl. eapply IH. exact E. }
  destruct m as [[q odd]|].
  - destruct (_ && _); apply G.
  - destruct (existsb _ _); [apply G|].
    destruct (N.eqb_spec c tg) as [->|]; [|apply G]. intro H; inversion H; reflexivity.
Qed.

Lemma check_complete_correct : forall sp content,
  check_complete sp content = true <->
  (let s := strip sp content in
   s <> [] /\ firstn 4 s <> t "exit" /\ hd_error s <> Some 33%N /\ hd_error s <> Some 37%N /\
   find_outside [96; 34; 39]%N 59%N None s = None).
Proof.
  intros sp content. unfold check_complete. cbv zeta. set (s := strip sp content). clearbody s.
  destruct s as [|c r]; [split; [discriminate|intros [H _]; congruence]|].
  destruct (text_eqb (firstn 4 (c :: r)) (t "exit")) eqn:Ee.
  { apply text_eqb_spec in Ee. split; [discriminate|intros (_ & H & _); congruence]. }
  apply text_eqb_neq in Ee.
  destruct (in_chars c (t "!%")) eqn:Ec.
  { split; [discriminate|]. intros (_ & _ & H1 & H2 & _). exfalso.
    unfold in_chars in Ec. cbn in Ec. rewrite orb_false_r in Ec. apply orb_true_iff in Ec as [Ec|Ec];
    apply N.eqb_eq in Ec; subst c; simpl in *; congruence. }
  assert (Hc : hd_error (c :: r) <> Some 33%N /\ hd_error (c :: r) <> Some 37%N).
  { unfold in_chars in Ec. cbn in Ec. rewrite orb_false_r in Ec. apply orb_false_iff in Ec as [E1 E2].
    apply N.eqb_neq in E1, E2. simpl. split; congruence. }
  unfold read_util_complete. cbn [nth_error idx].
  unfold read_util.
  assert (H := read_util_find [QB; QD; QS] SEMI (length (c :: r)) (c :: r) [] 0 (S (length (c :: r)))
                 (le_n _) ltac:(lia) ltac:(repeat constructor)).
  simpl app in H. change (at_ []) with (mkp 0 1) in H. cbn [idx] in *. rewrite H.
  unfold QB, QD, QS, SEMI in *.
  destruct (find_outside [96%N; 34%N; 39%N] 59 None (c :: r)) as [i|].
  - split; [discriminate|intros (_ & _ & _ & _ & K); discriminate].
  - split; [|reflexivity]. intros _. repeat split; try tauto; try discriminate. 
Qed.

(** * Placeholders *)
Lemma find_local : forall b m r r',
  find_outside [34; 39]%N 96%N m (b ++ 96%N :: r) = Some (length b) ->
  find_outside [34; 39]%N 96%N m (b ++ 96%N :: r') = Some (length b).
Proof.
  assert (OM : forall (o : option nat) n, option_map S o = Some (S n) -> o = Some n)
    by (intros [o|] n H; simpl in H; congruence).
  induction b as [|c b IH]; intros m r r'.
  - cbn [app find_outside length]. destruct m as [[q odd]|].
    + destruct (_ && _); intro H; exfalso.
      * destruct (find_outside _ _ _ _); discriminate.
      * destruct (find_outside _ _ _ _); discriminate.
    + destruct (existsb _ _) eqn:E; [discriminate|]. auto.
  - cbn [app find_outside length].
    assert (G : forall m', option_map S (find_outside [34; 39]%N 96%N m' (b ++ 96%N :: r)) = Some (S (length b)) ->
                option_map S (find_outside [34; 39]%N 96%N m' (b ++ 96%N :: r')) = Some (S (length b))).
    { intros m' H. apply OM in H. rewrite (IH m' r r' H). reflexivity. }
    destruct m as [[q odd]|].
    + destruct (_ && _); apply G.
    + destruct (existsb _ _); [apply G|]. destruct (N.eqb c 96); [discriminate|apply G].
Qed.

Lemma find_clean : forall n r, Forall (fun c => c <> 34%N /\ c <> 39%N /\ c <> 96%N) n ->
  find_bq (n ++ 96%N :: r) = Some (length n).
Proof.
  unfold find_bq. induction n as [|c n IH]; intros r H; cbn [app find_outside length]; [reflexivity|].
  inversion H as [|? ? [H1 [H2 H3]] Hn]; subst. cbn [existsb].
  rewrite (proj2 (N.eqb_neq c 34)), (proj2 (N.eqb_neq c 39)), (proj2 (N.eqb_neq c 96)) by auto.
  simpl. rewrite IH by auto. reflexivity.
Qed.

Lemma find_split : forall s i, find_bq s = Some i -> exists b r, s = b ++ 96%N :: r /\ length b = i.
Proof.
  intros s i H. apply find_outside_nil_head in H. apply nth_error_split in H as (b & r & E & L). eauto.
Qed.

Lemma firstn_len_app : forall (b r : text), firstn (length b) (b ++ r) = b.
Proof. intros. rewrite firstn_app, Nat.sub_diag, firstn_all. simpl. apply app_nil_r. Qed.

Definition HQ2 : Forall (fun q => (q =? 92)%N = false) default_esc := ltac:(repeat constructor).

Lemma read_util_bq : forall suf pre start fuel, length suf < fuel ->
  read_util_loop fuel (pre ++ suf) [QB] default_esc start (at_ pre) =
  match find_bq suf with
  | Some i => Done (at_ (pre ++ firstn i suf))
                   (start, (length pre + i)%nat, slice (pre ++ suf) start (length pre + i))
  | None => Eof (at_ (pre ++ suf))
  end.
Proof. intros. exact (read_util_find default_esc QB _ _ _ _ _ (le_n _) H HQ2). Qed.

Lemma read_segment_name : forall b n r pre fuel,
  length (b ++ 96%N :: n ++ 96%N :: r) < fuel ->
  find_bq (b ++ 96%N :: n ++ 96%N :: r) = Some (length b) ->
  find_bq (n ++ 96%N :: r) = Some (length n) ->
  read_segment fuel (pre ++ b ++ 96%N :: n ++ 96%N :: r) QB (at_ pre) =
  Done (at_ (pre ++ b ++ 96%N :: n ++ [96%N]))
       (length pre + length b + 1, length pre + length b + 1 + length n, n).
Proof.
  intros b n r pre fuel Hf H1 H2. unfold read_segment. simpl idx.
  rewrite nth_mid. destruct (b ++ 96%N :: n ++ 96%N :: r) as [|x y] eqn:Exy.
  { destruct b; discriminate. }
  cbn [hd_error]. rewrite <- Exy in *. clear x y Exy.
  unfold read_util. rewrite read_util_bq by exact Hf.
  rewrite H1. rewrite firstn_len_app.
  assert (S1 : pre ++ b ++ 96%N :: n ++ 96%N :: r = (pre ++ b) ++ 96%N :: n ++ 96%N :: r) by (rewrite <- app_assoc; reflexivity).
  assert (N1 : next (pre ++ b ++ 96%N :: n ++ 96%N :: r) (at_ (pre ++ b)) = at_ ((pre ++ b) ++ [96%N]))
    by (rewrite S1; apply next_at).
  rewrite N1. clear N1.
  assert (S2 : pre ++ b ++ 96%N :: n ++ 96%N :: r = ((pre ++ b) ++ [96%N]) ++ n ++ 96%N :: r) by (rewrite <- !app_assoc; reflexivity).
  rewrite S2.
  rewrite read_util_bq by (rewrite app_length in Hf; simpl in Hf; lia).
  rewrite H2. rewrite firstn_len_app.
  assert (S3 : ((pre ++ b) ++ [96%N]) ++ n ++ 96%N :: r = (((pre ++ b) ++ [96%N]) ++ n) ++ 96%N :: r) by (rewrite <- !app_assoc; reflexivity).
  rewrite S3. rewrite next_at. rewrite <- S3.
  f_equal.
  - f_equal. rewrite <- !app_assoc. reflexivity.
  - simpl idx. f_equal; [f_equal; rewrite !app_length; simpl; lia|].
    rewrite !app_length. cbn [length].
    replace (length pre + length b + 1) with (length ((pre ++ b) ++ [96%N])) by (rewrite !app_length; reflexivity).
    rewrite slice_mid. apply firstn_len_app.
Qed.

Lemma read_segment_none : forall suf pre fuel, length suf < fuel ->
  (find_bq suf = None \/ exists b r, suf = b ++ 96%N :: r /\ find_bq suf = Some (length b) /\ find_bq r = None) ->
  exists s, read_segment fuel (pre ++ suf) QB (at_ pre) = Eof s.
Proof.
  intros suf pre fuel Hf H. unfold read_segment. simpl idx. rewrite nth_mid.
  destruct suf as [|x y]; [eexists; reflexivity|]. cbn [hd_error].
  unfold read_util. rewrite read_util_bq by exact Hf.
  destruct H as [H|(b & r & E & H1 & H2)].
  - rewrite H. eexists; reflexivity.
  - rewrite H1. rewrite E in *. rewrite firstn_len_app.
    assert (S1 : pre ++ b ++ 96%N :: r = (pre ++ b) ++ 96%N :: r) by (rewrite <- app_assoc; reflexivity).
    rewrite S1. rewrite next_at.
    assert (S2 : (pre ++ b) ++ 96%N :: r = ((pre ++ b) ++ [96%N]) ++ r) by (rewrite <- !app_assoc; reflexivity).
    rewrite S2.
    rewrite read_util_bq by (rewrite app_length in Hf; simpl in Hf; lia).
    rewrite H2. eexists; reflexivity.
Qed.

(** Renamed pieces: what parse_mapping produces. *)
Fixpoint rename (alnum : N -> bool) (uuid : nat -> text) (k : nat) (p : pieces) : pieces :=
  match p with
  | PEnd s => PEnd s
  | PName b n r =>
    if text_eqb (allow_segment alnum n) n then PName b n (rename alnum uuid k r)
    else PName b (allow_segment alnum n ++ [95%N] ++ uuid k) (rename alnum uuid (S k) r)
  end.
Fixpoint bindings (alnum : N -> bool) (uuid : nat -> text) (k : nat) (p : pieces) (m : list (text * text)) :=
  match p with
  | PEnd s => m
  | PName b n r =>
    if text_eqb (allow_segment alnum n) n then bindings alnum uuid k r m
    else bindings alnum uuid (S k) r ((allow_segment alnum n ++ [95%N] ++ uuid k, n) :: m)
  end.

Lemma decomposes_render : forall s p, decomposes s p -> render p = s.
Proof. induction 1; simpl; auto. rewrite IHdecomposes. reflexivity. Qed.

Lemma slice_q : forall p0 q b r, 
  slice ((p0 ++ q) ++ b ++ 96%N :: r) (length p0) (length (p0 ++ q) + length b + 1) = q ++ b ++ [96%N].
Proof.
  intros. replace ((p0 ++ q) ++ b ++ 96%N :: r) with (p0 ++ (q ++ b ++ [96%N]) ++ r)
    by (rewrite <- !app_assoc; reflexivity).
  replace (length (p0 ++ q) + length b + 1) with (length p0 + length (q ++ b ++ [96%N]))
    by (rewrite !app_length; simpl; lia).
  rewrite slice_mid. apply firstn_len_app.
Qed.

Lemma pm_loop_spec : forall alnum uuid p suf, decomposes suf p -> forall p0 q k m acc fuel,
  length suf < fuel ->
  exists k', pm_loop alnum uuid fuel ((p0 ++ q) ++ suf) k m acc (length p0) (at_ (p0 ++ q)) =
    Some (acc ++ q ++ render (rename alnum uuid k p), bindings alnum uuid k p m, k').
Proof.
  intros alnum uuid p suf HD. induction HD as [s Hs|b r H1 H2|b n r p H1 H2 HD IH];
    intros p0 q k m acc fuel Hf; (destruct fuel as [|fuel]; [lia|]); cbn [pm_loop].
  - destruct (read_segment_none s (p0 ++ q) (S (length ((p0 ++ q) ++ s)))) as [st E]; auto.
    { rewrite app_length. lia. }
    rewrite E. exists k. simpl. rewrite <- app_assoc, skipn_app, skipn_all, Nat.sub_diag. reflexivity.
  - destruct (read_segment_none (b ++ 96%N :: r) (p0 ++ q) (S (length ((p0 ++ q) ++ b ++ 96%N :: r)))) as [st E].
    { rewrite (app_length (p0 ++ q)). lia. } { right. eauto. }
    rewrite E. exists k. cbn [rename bindings render]. rewrite <- app_assoc, skipn_app, skipn_all, Nat.sub_diag. reflexivity.
  - rewrite (read_segment_name b n r (p0 ++ q)); auto.
    2:{ rewrite (app_length (p0 ++ q)). lia. }
    rewrite slice_q.
    assert (Hf' : length r < fuel).
    { rewrite !app_length in Hf. simpl in Hf. rewrite app_length in Hf. simpl in Hf. lia. }
    assert (S1 : (p0 ++ q) ++ b ++ 96%N :: n ++ 96%N :: r = (((p0 ++ q) ++ b ++ 96%N :: n) ++ [96%N]) ++ r).
    { rewrite <- !app_assoc. simpl. rewrite <- ?app_assoc. reflexivity. }
    assert (S2 : (p0 ++ q) ++ b ++ 96%N :: n ++ [96%N] = ((p0 ++ q) ++ b ++ 96%N :: n) ++ [96%N]).
    { rewrite <- !app_assoc. reflexivity. }
    assert (L : length (p0 ++ q) + length b + 1 + length n = length ((p0 ++ q) ++ b ++ 96%N :: n)).
    { rewrite !app_length. simpl. lia. }
    rewrite S1, S2, L.
    cbn [rename bindings].
    destruct (text_eqb (allow_segment alnum n) n); cbn [negb].
    + destruct (IH ((p0 ++ q) ++ b ++ 96%N :: n) [96%N] k m (acc ++ (q ++ b ++ [96%N]) ++ n) fuel Hf') as [k' E].
      exists k'. etransitivity; [exact E|]. cbn [render]. do 3 f_equal. rewrite <- !app_assoc. simpl. 
      rewrite <- ?app_assoc. reflexivity.
    + destruct (IH ((p0 ++ q) ++ b ++ 96%N :: n) [96%N] (S k)
                   ((allow_segment alnum n ++ [95%N] ++ uuid k, n) :: m)
                   (acc ++ (q ++ b ++ [96%N]) ++ allow_segment alnum n ++ [95%N] ++ uuid k) fuel Hf') as [k' E].
      exists k'. etransitivity; [exact E|]. cbn [render]. do 3 f_equal. rewrite <- !app_assoc. simpl.
      rewrite <- ?app_assoc. simpl. reflexivity.
Qed.

Fixpoint restore (m : list (text * text)) (p : pieces) : pieces :=
  match p with
  | PEnd s => PEnd s
  | PName b n r => PName b (match assoc n m with Some x => x | None => n end) (restore m r)
  end.

Lemma ts_loop_spec : forall m p suf, decomposes suf p -> forall p0 q acc fuel,
  length suf < fuel ->
  ts_loop fuel m ((p0 ++ q) ++ suf) acc (length p0) (at_ (p0 ++ q)) =
    Some (acc ++ q ++ render (restore m p)).
Proof.
  intros m p suf HD. induction HD as [s Hs|b r H1 H2|b n r p H1 H2 HD IH];
    intros p0 q acc fuel Hf; (destruct fuel as [|fuel]; [lia|]); cbn [ts_loop].
  - destruct (read_segment_none s (p0 ++ q) (S (length ((p0 ++ q) ++ s)))) as [st E]; auto.
    { rewrite app_length. lia. }
    rewrite E. simpl. rewrite <- app_assoc, skipn_app, skipn_all, Nat.sub_diag. reflexivity.
  - destruct (read_segment_none (b ++ 96%N :: r) (p0 ++ q) (S (length ((p0 ++ q) ++ b ++ 96%N :: r)))) as [st E].
    { rewrite (app_length (p0 ++ q)). lia. } { right. eauto. }
    rewrite E. cbn [restore render]. rewrite <- app_assoc, skipn_app, skipn_all, Nat.sub_diag. reflexivity.
  - rewrite (read_segment_name b n r (p0 ++ q)); auto.
    2:{ rewrite (app_length (p0 ++ q)). lia. }
    rewrite slice_q.
    assert (Hf' : length r < fuel).
    { rewrite !app_length in Hf. simpl in Hf. rewrite app_length in Hf. simpl in Hf. lia. }
    assert (S1 : (p0 ++ q) ++ b ++ 96%N :: n ++ 96%N :: r = (((p0 ++ q) ++ b ++ 96%N :: n) ++ [96%N]) ++ r).
    { rewrite <- !app_assoc. simpl. rewrite <- ?app_assoc. reflexivity. }
    assert (S2 : (p0 ++ q) ++ b ++ 96%N :: n ++ [96%N] = ((p0 ++ q) ++ b ++ 96%N :: n) ++ [96%N]).
    { rewrite <- !app_assoc. reflexivity. }
    assert (L : length (p0 ++ q) + length b + 1 + length n = length ((p0 ++ q) ++ b ++ 96%N :: n)).
    { rewrite !app_length. simpl. lia. }
    rewrite S1, S2, L. rewrite IH by auto.
    cbn [restore render]. do 1 f_equal. rewrite <- !app_assoc. simpl. rewrite <- ?app_assoc. reflexivity.
Qed.

Lemma to_sql_spec : forall m s p, decomposes s p -> to_sql m s = Some (render (restore m p)).
Proof.
  intros m s p HD. unfold to_sql.
  exact (ts_loop_spec m p s HD [] [] [] (S (length s)) ltac:(lia)).
Qed.

Lemma parse_mapping_spec : forall alnum uuid m s p, decomposes s p ->
  exists k, parse_mapping alnum uuid m s = Some (render (rename alnum uuid 0 p), bindings alnum uuid 0 p m, k).
Proof.
  intros alnum uuid m s p HD. unfold parse_mapping.
  exact (pm_loop_spec alnum uuid p s HD [] [] 0 m [] (S (length s)) ltac:(lia)).
Qed.

Lemma decomposes_total : forall n s, length s <= n -> exists p, decomposes s p.
Proof.
  induction n as [|n IH]; intros s Hn.
  - destruct s; [|simpl in Hn; lia]. exists (PEnd []). constructor. reflexivity.
  - destruct (find_bq s) as [i|] eqn:E; [|exists (PEnd s); constructor; auto].
    destruct (find_split _ _ E) as (b & r & Es & L). subst s i.
    destruct (find_bq r) as [j|] eqn:E2.
    + destruct (find_split _ _ E2) as (nm & r2 & Er & L2). subst r j.
      destruct (IH r2) as [p Hp].
      { rewrite app_length in Hn. simpl in Hn. rewrite app_length in Hn. simpl in Hn. lia. }
      exists (PName b nm p). apply dec_name; auto.
    + exists (PEnd (b ++ 96%N :: r)). apply dec_open; auto.
Qed.

Section Round.
Variable alnum : N -> bool.
Variable uuid : nat -> text.
Hypothesis alnum_q : alnum 34%N = false /\ alnum 39%N = false /\ alnum 96%N = false.
Hypothesis uuid_digits : forall i c, In c (uuid i) -> (48 <= c <= 57)%N.
Hypothesis uuid_inj : forall i j, uuid i = uuid j -> i = j.

Definition clean (n : text) := Forall (fun c => c <> 34%N /\ c <> 39%N /\ c <> 96%N) n.

Lemma allow_clean : forall n, clean (allow_segment alnum n).
Proof.
  unfold clean. induction n as [|c n IH]; simpl; [constructor|].
  destruct (alnum c) eqn:E; constructor; auto.
  destruct alnum_q as (A & B & C). repeat split; intro; subst c; congruence.
Qed.

Lemma place_clean : forall n k, clean (allow_segment alnum n ++ [95%N] ++ uuid k).
Proof.
  intros n k. apply Forall_app. split; [apply allow_clean|].
  constructor; [repeat split; discriminate|].
  apply Forall_forall. intros c Hc. apply uuid_digits in Hc. repeat split; lia.
Qed.

Lemma rename_decomposes : forall s p, decomposes s p -> forall k,
  decomposes (render (rename alnum uuid k p)) (rename alnum uuid k p).
Proof.
  induction 1 as [s Hs|b r H1 H2|b n r p H1 H2 HD IH]; intro k.
  - constructor. exact Hs.
  - cbn [rename render]. apply dec_open; auto.
  - cbn [rename]. destruct (text_eqb (allow_segment alnum n) n) eqn:E; cbn [render].
    + apply text_eqb_spec in E. apply dec_name; auto.
      * apply find_local with (r := n ++ 96%N :: r). exact H1.
      * apply find_clean. rewrite <- E. apply allow_clean.
    + apply dec_name; auto.
      * eapply find_local. exact H1.
      * apply find_clean. apply place_clean.
Qed.

Lemma bind_assoc_skip : forall p k m x,
  (forall a i, k <= i -> x <> a ++ [95%N] ++ uuid i) ->
  assoc x (bindings alnum uuid k p m) = assoc x m.
Proof.
  induction p as [s|b n r IH]; intros k m x H; cbn [bindings]; [reflexivity|].
  destruct (text_eqb (allow_segment alnum n) n); [apply IH; auto|].
  rewrite IH by (intros; apply H; lia). cbn [assoc].
  rewrite (proj2 (text_eqb_neq _ _)); auto.
Qed.

Lemma last_us : forall a b u v, (forall c, In c u -> (48 <= c <= 57)%N) -> (forall c, In c v -> (48 <= c <= 57)%N) ->
  a ++ 95%N :: u = b ++ 95%N :: v -> u = v.
Proof.
  intros a b u. revert a b. induction u as [|x u IH] using rev_ind; intros a b v Hu Hv E.
  - destruct v as [|y v] using rev_ind; auto.
    exfalso. change (b ++ 95%N :: v ++ [y]) with (b ++ (95%N :: v) ++ [y]) in E.
    rewrite app_assoc in E. apply app_inj_tail in E as [_ E]. subst y.
    assert (K : In 95%N (v ++ [95%N])) by (apply in_or_app; right; left; auto). apply Hv in K. lia.
  - destruct v as [|y v _] using rev_ind.
    + exfalso. change (a ++ 95%N :: u ++ [x]) with (a ++ (95%N :: u) ++ [x]) in E.
      rewrite app_assoc in E. apply app_inj_tail in E as [_ E]. subst x.
      assert (K : In 95%N (u ++ [95%N])) by (apply in_or_app; right; left; auto). apply Hu in K. lia.
    + change (a ++ 95%N :: u ++ [x]) with (a ++ (95%N :: u) ++ [x]) in E.
      change (b ++ 95%N :: v ++ [y]) with (b ++ (95%N :: v) ++ [y]) in E.
      rewrite !app_assoc in E. apply app_inj_tail in E as [E ->]. f_equal.
      apply (IH a b v); auto.
      * intros c Hc. apply Hu. apply in_or_app; auto.
      * intros c Hc. apply Hv. apply in_or_app; auto.
Qed.

Lemma place_inj : forall a b i j, a ++ [95%N] ++ uuid i = b ++ [95%N] ++ uuid j -> i = j.
Proof.
  intros a b i j E. apply uuid_inj. apply (last_us a b); auto; apply uuid_digits.
Qed.

Lemma restore_rename : forall p k m,
  (forall n a i, In n (names p) -> n <> a ++ [95%N] ++ uuid i) ->
  (forall n, In n (names p) -> assoc n m = None) ->
  forall m', (forall x, (forall i a, k <= i -> x <> a ++ [95%N] ++ uuid i) -> assoc x m' = assoc x m) ->
  (forall x, (exists i a, k <= i /\ x = a ++ [95%N] ++ uuid i) -> assoc x m' = assoc x (bindings alnum uuid k p m)) ->
  restore m' (rename alnum uuid k p) = p.
Proof.
  induction p as [s|b n r IH]; intros k m Hfr Hm m' H1 H2; cbn [rename]; [reflexivity|].
  destruct (text_eqb (allow_segment alnum n) n) eqn:E; cbn [restore].
  - f_equal.
    + rewrite H1 by (intros; apply Hfr; left; auto). rewrite Hm by (left; auto). reflexivity.
    + apply (IH k m); auto; intros; [apply Hfr; right; auto|apply Hm; right; auto|].
      rewrite H2 by auto. cbn [bindings]. rewrite E. reflexivity.
  - f_equal.
    + rewrite H2 by (exists k, (allow_segment alnum n); auto). cbn [bindings]. rewrite E.
      rewrite bind_assoc_skip.
      * cbn [assoc]. rewrite text_eqb_refl. reflexivity.
      * intros a i Hi K. apply place_inj in K. lia.
    + apply (IH (S k) ((allow_segment alnum n ++ [95%N] ++ uuid k, n) :: m)).
      * intros; apply Hfr; right; auto.
      * intros n' Hn'. cbn [assoc]. rewrite (proj2 (text_eqb_neq _ _)).
        -- apply Hm. right; auto.
        -- intro K. apply (Hfr n' (allow_segment alnum n) k); [right; auto|exact K].
      * intros x Hx. cbn [assoc].
        destruct (text_eqb x (allow_segment alnum n ++ [95%N] ++ uuid k)) eqn:Ex.
        -- apply text_eqb_spec in Ex. subst x. rewrite H2 by (exists k, (allow_segment alnum n); auto).
           cbn [bindings]. rewrite E. rewrite bind_assoc_skip.
           ++ cbn [assoc]. rewrite text_eqb_refl. reflexivity.
           ++ intros a i Hi K. apply place_inj in K. lia.
        -- destruct (text_eq_dec x x) as [_|]; [|congruence].
           (* either x is a placeholder of index k with another prefix, or of no index >= k *)
           assert (D : (exists a, x = a ++ [95%N] ++ uuid k) \/ (forall a, x <> a ++ [95%N] ++ uuid k)).
           { clear - x. set (w := [95%N] ++ uuid k).
             destruct (text_eq_dec (skipn (length x - length w) x) w) as [Ew|Nw].
             - left. exists (firstn (length x - length w) x). 
               transitivity (firstn (length x - length w) x ++ skipn (length x - length w) x);
                 [symmetry; apply firstn_skipn|rewrite Ew; reflexivity].
             - right. intros a Ea. apply Nw. rewrite Ea, app_length.
               replace (length a + length w - length w) with (length a) by lia.
               rewrite skipn_app, skipn_all, Nat.sub_diag. reflexivity. }
           destruct D as [[a Ea]|D].
           ++ rewrite H2 by (exists k, a; auto). cbn [bindings]. rewrite E.
              rewrite bind_assoc_skip; [cbn [assoc]; rewrite Ex; reflexivity|].
              intros a' i Hi K. rewrite Ea in K. apply place_inj in K. lia.
           ++ apply H1. intros i a Hi. destruct (Nat.eq_dec i k) as [->|]; [apply D|apply Hx; lia].
      * intros x (i & a & Hi & Ex). rewrite H2 by (exists i, a; split; auto; lia).
        cbn [bindings]. rewrite E. reflexivity.
Qed.

Lemma mapping_roundtrip : forall s p, decomposes s p ->
  (forall n a i, In n (names p) -> n <> a ++ [95%N] ++ uuid i) ->
  exists out m k, parse_mapping alnum uuid [] s = Some (out, m, k) /\ to_sql m out = Some s /\
    exists p', decomposes out p' /\ Forall clean (names p').
Proof.
  intros s p HD Hfr. destruct (parse_mapping_spec alnum uuid [] s p HD) as [k E].
  eexists; eexists; exists k. split; [exact E|]. split.
  - rewrite (to_sql_spec _ _ _ (rename_decomposes s p HD 0)). f_equal.
    rewrite (restore_rename p 0 []); auto.
    + apply decomposes_render. exact HD.
    + intros x Hx. apply bind_assoc_skip. intros a i Hi. apply Hx. exact Hi.
  - exists (rename alnum uuid 0 p). split; [eapply rename_decomposes; eauto|].
    clear - alnum_q uuid_digits. generalize 0. induction p as [s|b n r IH]; intro k; cbn [rename]; [constructor|].
    destruct (text_eqb (allow_segment alnum n) n) eqn:E; cbn [names]; constructor; auto.
    + apply text_eqb_spec in E. rewrite <- E. apply allow_clean.
    + apply place_clean.
Qed.
End Round.

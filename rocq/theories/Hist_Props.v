(** C41: the prompt history. *)
From Verif Require Import Base PyVal Utils_Model Utils_Proofs Hist_Model Hist_Spec.
Local Open Scope nat_scope.

(** Lines of a text made of lines. *)
Definition line (l : text) : Prop := exists b, l = b ++ [10%N] /\ ~ In 10%N b.
Lemma lines_of_line : forall b r cur, ~ In 10%N b -> lines_of (b ++ 10%N :: r) cur = (rev cur ++ b ++ [10%N]) :: lines_of r [].
Proof.
  induction b as [|c b IH]; intros r cur H; cbn [app lines_of].
  - rewrite N.eqb_refl. reflexivity.
  - destruct (N.eqb_spec c 10); [exfalso; apply H; left; auto|]. rewrite IH by (intro X; apply H; right; exact X). cbn [rev]. rewrite <- app_assoc. reflexivity.
Qed.
Lemma lines_of_concat : forall ls, Forall line ls -> lines_of (concat ls) [] = ls.
Proof.
  induction ls as [|l ls IH]; intro F; [reflexivity|]. inversion F as [|x y (b & -> & N) F']; subst. cbn [concat]. rewrite <- app_assoc. cbn [app].
  rewrite lines_of_line by exact N. cbn [rev app]. rewrite IH by exact F'. reflexivity.
Qed.
Lemma split_parts : forall sep s g, In g (split_on sep s) -> ~ In sep g.
Proof.
  induction s as [|c s IH]; intros g I; cbn [split_on] in I.
  - destruct I as [<-|[]]. intros [].
  - destruct (N.eqb_spec c sep) as [->|Nc].
    + destruct I as [<-|I]; [intros []|apply IH, I].
    + destruct (split_on sep s) as [|g0 gs] eqn:E.
      * destruct I as [<-|[]]. intros [X|[]]. congruence.
      * destruct I as [<-|I]; [|apply IH; right; exact I]. intros [X|X]; [congruence|]. apply (IH g0); [left; reflexivity|exact X].
Qed.
Lemma split_nonempty : forall sep s, split_on sep s <> [].
Proof. intros sep s E. destruct s as [|c s]; [discriminate E|]. cbn in E. destruct (c =? sep)%N; [discriminate E|]. destruct (split_on sep s); discriminate E. Qed.
Lemma concat_lines : forall s, concat (map (fun l => l ++ [10%N]) (split_on 10%N s)) = s ++ [10%N].
Proof.
  intro s. transitivity (join_with 10%N (split_on 10%N s) ++ [10%N]); [|rewrite split_on_join; reflexivity].
  generalize (split_nonempty 10%N s). induction (split_on 10%N s) as [|g [|g2 gs] IH]; intro H; [contradiction|cbn; rewrite app_nil_r; reflexivity|].
  cbn [map concat] in *. cbn [join_with]. rewrite IH by discriminate. rewrite <- !app_assoc. reflexivity.
Qed.

(** The lines of one entry in the file. *)
Definition stamp (tm : text) : Prop := exists now, tm = 35%N :: now ++ [10%N] /\ ~ In 10%N now.
Definition plus (s : text) : list text := map (fun l => 43%N :: l ++ [10%N]) (split_on 10%N s).
Definition entry_lines (e : text * text) : list text := [10%N] :: snd e :: plus (fst e).
Lemma rewrite_entry_lines : forall e, rewrite_entry e = concat (entry_lines e).
Proof. reflexivity. Qed.
Lemma entry_lines_ok : forall e, stamp (snd e) -> Forall line (entry_lines e).
Proof.
  intros [s tm] (now & E & N). cbn in E. subst tm. constructor; [exists []; split; [reflexivity|intros []]|].
  constructor; [exists (35%N :: now); split; [reflexivity|intros [X|X]; [discriminate X|apply N, X]]|].
  unfold plus. apply Forall_forall. intros l I. apply in_map_iff in I. destruct I as (g & <- & I). exists (43%N :: g). split; [reflexivity|].
  intros [X|X]; [discriminate X|]. exact (split_parts _ _ _ I X).
Qed.
Definition file_of (es : list (text * text)) : text := concat (map rewrite_entry es).
Lemma file_lines : forall es, Forall (fun e => stamp (snd e)) es -> lines_of (file_of es) [] = concat (map entry_lines es).
Proof.
  intros es F. unfold file_of. replace (concat (map rewrite_entry es)) with (concat (concat (map entry_lines es))).
  - apply lines_of_concat. rewrite Forall_forall in *. intros l I. apply in_concat in I. destruct I as (ls & I & Il). apply in_map_iff in I.
    destruct I as (e & <- & I). pose proof (entry_lines_ok e (F e I)) as H. rewrite Forall_forall in H. apply H, Il.
  - clear F. induction es as [|e es IH]; [reflexivity|]. cbn [map concat]. rewrite concat_app, IH. reflexivity.
Qed.

Lemma load_plus : forall gs r acc lines tm, load_loop (map (fun l => 43%N :: l ++ [10%N]) gs ++ r) acc lines tm =
  load_loop r acc (lines ++ map (fun l => l ++ [10%N]) gs) tm.
Proof.
  induction gs as [|g gs IH]; intros r acc lines tm; cbn [map app load_loop]; [rewrite app_nil_r; reflexivity|].
  cbn [starts]. rewrite N.eqb_refl. cbn [tl]. rewrite IH, <- app_assoc. reflexivity.
Qed.
Lemma load_entries : forall es s tm acc, Forall (fun e => stamp (snd e)) es ->
  load_loop (concat (map entry_lines es)) acc (map (fun l => l ++ [10%N]) (split_on 10%N s)) tm = acc ++ (s, tm) :: es.
Proof.
  assert (FL : forall acc s tm, flush acc (map (fun l => l ++ [10%N]) (split_on 10%N s)) tm = acc ++ [(s, tm)]).
  { intros acc s tm. unfold flush. rewrite concat_lines, removelast_last. reflexivity. }
  assert (NE : forall s, exists x l, map (fun l => l ++ [10%N]) (split_on 10%N s) = x :: l).
  { intro s. pose proof (split_nonempty 10%N s). destruct (split_on 10%N s); [contradiction|]. cbn. eauto. }
  induction es as [|[s1 t1] es IH]; intros s tm acc F.
  - cbn [map concat load_loop]. destruct (NE s) as (x & l & E). rewrite E. rewrite <- E. apply FL.
  - inversion F as [|x y (now & Et & _) F']; subst. cbn in Et. subst t1. cbn [map concat]. unfold entry_lines at 1. cbn [fst snd app load_loop starts].
    change (10 =? 43)%N with false. change (10 =? 35)%N with false. cbn iota zeta.
    destruct (NE s) as (x & l & E). rewrite E. rewrite <- E. rewrite FL. change (35 =? 43)%N with false. change (35 =? 35)%N with true. cbn iota zeta.
    unfold plus. rewrite load_plus. cbn [app]. rewrite IH by exact F'. rewrite <- app_assoc. reflexivity.
Qed.
Lemma load_file : forall es, Forall (fun e => stamp (snd e)) es -> load_loop (lines_of (file_of es) []) [] [] [] = es.
Proof.
  intros es F. rewrite file_lines by exact F. destruct es as [|[s1 t1] es]; [reflexivity|].
  inversion F as [|x y (now & Et & _) F']; subst. cbn in Et. subst t1. cbn [map concat]. unfold entry_lines at 1. cbn [fst snd app load_loop starts].
  change (10 =? 43)%N with false. change (10 =? 35)%N with false. cbn iota zeta. change (35 =? 43)%N with false. change (35 =? 35)%N with true. cbn iota zeta.
  unfold plus. rewrite load_plus. cbn [app]. rewrite load_entries by exact F'. reflexivity.
Qed.

Section History.
Variable lower : text -> text.
Definition forget (s : text) : bool := text_eqb (firstn 4 (lower s)) (t "exit").
(** Carrying out a history on the file. *)
Definition perform (file : text) (o : op) : text :=
  match o with Enter now c => store lower file now c | Restart => snd (load file) end.
Definition times_ok (ops : list op) : Prop := forall now c, In (Enter now c) ops -> ~ In 10%N now.

Lemma store_file : forall es now s, ~ In 10%N now -> store lower (file_of es) now s =
  file_of (if forget s then es else es ++ [(s, 35%N :: (32%N :: now) ++ [10%N])]).
Proof.
  intros es now s N. unfold store, forget. destruct (text_eqb _ _); [reflexivity|]. unfold file_of. rewrite map_app, concat_app. f_equal.
  cbn [map concat]. rewrite app_nil_r. unfold rewrite_entry. cbn [fst snd app]. rewrite <- app_assoc. reflexivity.
Qed.
Lemma load_of : forall es, Forall (fun e => stamp (snd e)) es ->
  load (file_of es) = (rev (map fst es), file_of (skipn (length es - 50) es)).
Proof.
  intros es F. unfold load. rewrite load_file by exact F. destruct (Nat.leb_spec (length es) 50) as [L|L]; [|reflexivity].
  replace (length es - 50) with 0 by lia. reflexivity.
Qed.
(** The file always holds a run of the latest entries: all of them as long as there are at most 50. *)
Lemma history_inv : forall ops, times_ok ops -> exists es k, fold_left perform ops [] = file_of es /\ Forall (fun e => stamp (snd e)) es /\
  map fst es = skipn k (entered forget ops) /\ (length (entered forget ops) - k >= 50 \/ k = 0).
Proof.
  induction ops as [|o ops IH] using rev_ind; intro T.
  - exists [], 0. split; [reflexivity|]. split; [constructor|]. split; [reflexivity|right; reflexivity].
  - destruct IH as (es & k & E & F & M & K); [intros now c I; apply (T now c), in_or_app; left; exact I|].
    rewrite fold_left_app. cbn [fold_left]. rewrite E.
    assert (EN : forall a b, entered forget (a ++ b) = entered forget a ++ entered forget b).
    { induction a as [|[n c|] a IHa]; intro b; cbn [app entered]; [reflexivity|destruct (forget c); [apply IHa|cbn [app]; f_equal; apply IHa]|apply IHa]. }
    rewrite EN. destruct o as [now c|]; cbn [perform entered].
    + rewrite store_file by (apply (T now c), in_or_app; right; left; reflexivity).
      destruct (forget c); [exists es, k; rewrite app_nil_r; repeat split; assumption|].
      exists (es ++ [(c, 35%N :: (32%N :: now) ++ [10%N])]), k. split; [reflexivity|]. split.
      * apply Forall_app. split; [exact F|]. constructor; [|constructor]. exists (32%N :: now). split; [reflexivity|].
        intros [X|X]; [discriminate X|]. apply (T now c); [apply in_or_app; right; left; reflexivity|exact X].
      * rewrite map_app, M. cbn [map fst]. rewrite app_length. cbn [length].
        assert (k <= length (entered forget ops)) by lia. split.
        -- rewrite skipn_app. replace (k - length (entered forget ops)) with 0 by lia. reflexivity.
        -- lia.
    + rewrite app_nil_r. rewrite load_of by exact F. cbn [snd]. exists (skipn (length es - 50) es), (length es - 50 + k).
      split; [reflexivity|]. split; [apply Forall_forall; intros e I; rewrite Forall_forall in F; apply F; rewrite <- (firstn_skipn (length es - 50) es); apply in_or_app; right; exact I|].
      assert (L : length es = length (entered forget ops) - k) by (rewrite <- (map_length fst), M, skipn_length; reflexivity).
      split.
      * rewrite <- skipn_map, M.
        assert (SS : forall (l : list text) a b, skipn a (skipn b l) = skipn (a + b) l).
        { induction l as [|x l IHl]; intros a b; [rewrite !skipn_nil; reflexivity|]. destruct b; [rewrite Nat.add_0_r; reflexivity|].
          rewrite Nat.add_succ_r. cbn [skipn]. apply IHl. }
        apply SS.
      * lia.
Qed.

(** Whatever was typed and however often the prompt was restarted, loading the history gives the latest commands, newest
    first, exactly as typed: at least the last 50 of them (all when there are fewer). *)
Theorem history_recent : forall ops, times_ok ops -> exists n, fst (load (fold_left perform ops [])) = newest n (entered forget ops) /\
  (n >= 50 \/ n >= length (entered forget ops)).
Proof.
  intros ops T. destruct (history_inv ops T) as (es & k & E & F & M & K). rewrite E, load_of by exact F. cbn [fst].
  exists (length (entered forget ops) - k). split; [|lia]. unfold newest. rewrite M. rewrite firstn_rev.
  destruct (Nat.le_gt_cases k (length (entered forget ops))).
  - replace (length (entered forget ops) - (length (entered forget ops) - k)) with k by lia. reflexivity.
  - lia.
Qed.
(** What is kept on disk after a restart is exactly the last 50: a second restart shows these. *)
Theorem history_trimmed : forall ops, times_ok ops ->
  fst (load (fold_left perform (ops ++ [Restart]) [])) = newest 50 (entered forget ops).
Proof.
  intros ops T. rewrite fold_left_app. cbn [fold_left perform]. destruct (history_inv ops T) as (es & k & E & F & M & K).
  rewrite E, load_of by exact F. cbn [snd]. rewrite load_of.
  2: { apply Forall_forall; intros e I; rewrite Forall_forall in F; apply F; rewrite <- (firstn_skipn (length es - 50) es); apply in_or_app; right; exact I. }
  cbn [fst]. rewrite <- skipn_map, M. assert (L : length es = length (entered forget ops) - k) by (rewrite <- (map_length fst), M, skipn_length; reflexivity).
  unfold newest. rewrite firstn_rev.
  assert (SS : forall (l : list text) a b, skipn a (skipn b l) = skipn (a + b) l).
  { induction l as [|x l IHl]; intros a b; [rewrite !skipn_nil; reflexivity|]. destruct b; [rewrite Nat.add_0_r; reflexivity|].
    rewrite Nat.add_succ_r. cbn [skipn]. apply IHl. }
  rewrite SS. f_equal. f_equal. lia.
Qed.
(** The file on disk never loses a command among the last 50, across any number of later restarts. *)
Theorem history_restarts_idempotent : forall ops n, times_ok ops ->
  fold_left perform (ops ++ Restart :: repeat Restart n) [] = fold_left perform (ops ++ [Restart]) [].
Proof.
  intros ops n T. rewrite !fold_left_app. cbn [fold_left perform]. destruct (history_inv ops T) as (es & k & E & F & M & K).
  rewrite E, load_of by exact F. cbn [snd].
  assert (F2 : Forall (fun e => stamp (snd e)) (skipn (length es - 50) es)).
  { apply Forall_forall; intros e I; rewrite Forall_forall in F; apply F; rewrite <- (firstn_skipn (length es - 50) es); apply in_or_app; right; exact I. }
  assert (ST : snd (load (file_of (skipn (length es - 50) es))) = file_of (skipn (length es - 50) es)).
  { rewrite load_of by exact F2. cbn [snd]. rewrite skipn_length. replace (length es - (length es - 50) - 50) with 0 by lia. reflexivity. }
  induction n as [|n IH]; [reflexivity|]. cbn [repeat fold_left perform]. rewrite ST. exact IH.
Qed.
End History.

(** The first load after more than 50 new commands returns all of them, not only the last 50. *)
Definition many : list op := repeat (Enter (t "2024-01-01") (t "x")) 51.
Theorem history_limit_refuted : times_ok many /\ length (fst (load (fold_left (perform (fun s => s)) many []))) = 51.
Proof.
  split.
  - intros now c I. apply repeat_spec in I. injection I as -> _. vm_compute. intuition discriminate.
  - vm_compute. reflexivity.
Qed.
(** A command with several lines, a command beginning with '#', '+' or 'exit', and an empty line. *)
Definition session : list op := [Enter (t "now") (t "select 1" ++ 10%N :: 10%N :: t "+2;"); Enter (t "now") (t "exit"); Restart; Enter (t "now") (t "# c")].
Example ex_session : times_ok session /\ fst (load (fold_left (perform (fun s => s)) session [])) = [t "# c"; t "select 1" ++ 10%N :: 10%N :: t "+2;"].
Proof.
  split; [|reflexivity]. intros now c I. cbn in I. intuition; try discriminate;
    match goal with H : Enter _ _ = Enter _ _ |- _ => injection H as <- _; vm_compute in *; intuition discriminate end.
Qed.

Print Assumptions history_recent.
Print Assumptions history_trimmed.
Print Assumptions history_restarts_idempotent.
Print Assumptions history_limit_refuted.

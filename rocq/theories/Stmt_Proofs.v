(** Proofs about SET values and the routing of SET. *)
From Verif Require Import Base PyVal Agg_Model Utils_Spec Utils_Model Utils_Proofs Config_Model Config_Spec Config_Props Config_Sets Str_Model Str_Proofs Json_Proofs Stmt_Syntax Stmt_Spec Stmt_Model.
Open Scope nat_scope.

Section Value.
Variables (sp isdigit : N -> bool) (lower : text -> text).
Hypothesis Hdigit : forall c, (c < 128)%N -> (isdigit c = true <-> digit c).
Hypothesis Hlower : forall s, Forall (fun c => c < 128)%N s -> lower s = map lower_letter s.

Lemma quote_spec : forall c, quote c = true <-> (c = 39 \/ c = 34)%N.
Proof. intro c. unfold quote. rewrite orb_true_iff, !N.eqb_eq. tauto. Qed.
Lemma trimmed_strip : forall s w1 w2, trimmed sp s -> Forall (fun c => sp c = true) w1 -> Forall (fun c => sp c = true) w2 -> strip sp (w1 ++ s ++ w2) = s.
Proof. intros s w1 w2 [A B] W1 W2. apply strip_mid; auto. Qed.
Lemma pyslice_mid : forall (a s b : text) n, length a = n -> length b = n -> 0 < n -> pyslice (a ++ s ++ b) (Some (Z.of_nat n)) (Some (- Z.of_nat n)%Z) = s.
Proof.
  intros a s b n La Lb Hn. unfold pyslice, clampidx. rewrite !app_length, La, Lb.
  assert ((Z.of_nat n <? 0)%Z = false) as -> by (apply Z.ltb_ge; lia). assert ((- Z.of_nat n <? 0)%Z = true) as -> by (apply Z.ltb_lt; lia).
  match goal with |- context [skipn ?x] => replace x with n by lia end. match goal with |- context [firstn ?x] => replace x with (length s) by lia end.
  rewrite <- La, skipn_app, skipn_all, Nat.sub_diag. cbn [app skipn]. rewrite firstn_app, firstn_all, Nat.sub_diag. cbn [firstn]. apply app_nil_r.
Qed.
(** Values that do not begin with a quote: as the shared parser of literals (Utils_Model), which keeps other texts. *)
Lemma set_value_plain : forall s, s <> [] -> Forall (fun c => c < 128)%N s -> ~ starts_quoted s -> trimmed sp s ->
  set_value sp isdigit lower s = match parse_value sp isdigit lower s with Ok (VStr _) => Err ValueError | r => r end.
Proof.
  intros s Ns A NQ T. unfold set_value, parse_value.
  assert (strip sp s = s) as -> by (rewrite <- (app_nil_r s) at 1; apply (trimmed_strip s [] []); auto). cbv zeta.
  destruct s as [|c r]; [congruence|].
  assert (Qc : quote c = false) by (destruct (quote c) eqn:E; [exfalso; apply NQ; exists c, r; split; [reflexivity|apply quote_spec; exact E]|reflexivity]).
  rewrite Qc. assert (is_q c = false) as -> by exact Qc. match goal with |- context [(?a && false && ?b)%bool] => change (a && false && b)%bool with ((a && false) && b)%bool; rewrite (andb_false_r a); change (false && b)%bool with false end. cbn iota.
  set (s := c :: r) in *.
  assert (W : forall word, (word = t "true" \/ word = t "false" \/ word = t "null") -> all_digits isdigit s || ((c =? 45)%N && all_digits isdigit r) = true -> text_eqb (lower s) word = false).
  { intros word Hw H. apply text_eqb_neq. rewrite Hlower by exact A. intro E.
    assert (Hc : (97 <= lower_letter c)%N) by (destruct Hw as [->|[->| ->]]; cbn in E; injection E as E _; rewrite E; lia).
    assert (C : (digit c \/ c = 45)%N).
    { apply orb_true_iff in H. destruct H as [H|H]; [left|right; apply andb_true_iff in H; apply N.eqb_eq; tauto].
      apply (all_digits_iff isdigit Hdigit s A) in H. destruct H as [_ H]. inversion H; assumption. }
    unfold lower_letter in Hc. destruct ((65 <=? c) && (c <=? 90))%N eqn:X; [apply andb_true_iff in X; rewrite !N.leb_le in X|]; unfold digit in C; lia. }
  destruct (all_digits isdigit s || ((c =? 45)%N && all_digits isdigit r)) eqn:D.
  - rewrite !W by auto. destruct (all_digits isdigit s); [destruct (int_of_text s); reflexivity|]. cbn [orb] in D. rewrite D. destruct (int_of_text s); reflexivity.
  - apply orb_false_iff in D. destruct D as [-> D]. rewrite D. destruct (text_eqb (lower s) (t "true")); [reflexivity|]. destruct (text_eqb (lower s) (t "false")); [reflexivity|].
    destruct (text_eqb (lower s) (t "null")); [reflexivity|]. destruct (split_on 46 s) as [|a [|b [|x y]]]; try reflexivity.
    destruct ((all_digits isdigit a || ((c =? 45)%N && all_digits isdigit [])) && all_digits isdigit b); [|reflexivity]. destruct (float_of_text s); reflexivity.
Qed.
Lemma set_denotes_plain : forall s v, Forall (fun c => c < 128)%N s -> set_denotes sp s v -> ~ starts_quoted s -> s <> [] /\ denotes s v /\ forall x, v <> LText x.
Proof.
  intros s v A D N. destruct D as [q s Hq _ _|q w1 s w2 Hq _ _ _|ds [Hn Hd]|ds Hd|s E|s E|s E|ip fp Hi Hf].
  - exfalso. apply N. exists q, (s ++ [q]). auto.
  - exfalso. apply N. eexists q, _. split; [reflexivity|exact Hq].
  - split; [exact Hn|]. split; [constructor; split; auto|discriminate].
  - split; [discriminate|]. split; [constructor; exact Hd|discriminate].
  - split; [intros ->; discriminate E|]. split; [constructor; exact E|discriminate].
  - split; [intros ->; discriminate E|]. split; [constructor; exact E|discriminate].
  - split; [intros ->; discriminate E|]. split; [constructor; exact E|discriminate].
  - split; [destruct ip; discriminate|]. split; [constructor; auto|discriminate].
Qed.
(** [trimmed] for the whole value; a value that denotes something never has white space at its ends when quotes, digits and letters are not. *)
Theorem set_value_denotes : forall s v, Forall (fun c => c < 128)%N s -> trimmed sp s -> set_denotes sp s v -> set_value sp isdigit lower s = Ok (val_of_lit v).
Proof.
  intros s v A T D. assert (ST : starts_quoted s \/ ~ starts_quoted s).
  { destruct s as [|c r]; [right; intros (q & r & E & _); discriminate|]. destruct (quote c) eqn:E; [left; exists c, r; split; [reflexivity|apply quote_spec; exact E]|].
    right. intros (q & r' & E' & Hq). injection E' as -> _. apply quote_spec in Hq. congruence. }
  destruct ST as [ST|ST].
  - destruct D as [q s Hq N Ts|q w1 s w2 Hq Ts W1 W2|ds [_ Hd]|ds Hd|s E|s E|s E|ip fp [Hn Hi] Hf].
    + unfold set_value. rewrite (proj2 (quote_spec q) Hq).
      assert (X : forall b, text_eqb (firstn 3 (q :: s ++ [q])) [b; b; b] = false).
      { intro b. apply text_eqb_neq. intro E. destruct s as [|x s]; [discriminate E|]. cbn in E. injection E as E1 E2 _. apply N. left. congruence. }
      rewrite !X. cbn [orb]. assert (pyslice (q :: s ++ [q]) (Some 1%Z) (Some (-1)%Z) = s) as -> by (apply (pyslice_mid [q] s [q] 1); auto).
      assert (strip sp s = s) as -> by (rewrite <- (app_nil_r s) at 1; apply (trimmed_strip s [] []); auto). reflexivity.
    + unfold set_value. change ([q; q; q] ++ w1 ++ s ++ w2 ++ [q; q; q]) with (q :: [q; q] ++ w1 ++ s ++ w2 ++ [q; q; q]). cbv beta iota. rewrite (proj2 (quote_spec q) Hq).
      change (firstn 3 (q :: [q; q] ++ w1 ++ s ++ w2 ++ [q; q; q])) with [q; q; q].
      assert (text_eqb [q; q; q] [39; 39; 39]%N || text_eqb [q; q; q] [34; 34; 34]%N = true) as -> by (destruct Hq; subst; reflexivity).
      assert (pyslice (q :: [q; q] ++ w1 ++ s ++ w2 ++ [q; q; q]) (Some 3%Z) (Some (-3)%Z) = w1 ++ s ++ w2) as ->.
      { replace (q :: [q; q] ++ w1 ++ s ++ w2 ++ [q; q; q]) with ([q; q; q] ++ (w1 ++ s ++ w2) ++ [q; q; q]) by (cbn [app]; rewrite <- !app_assoc; reflexivity). apply (pyslice_mid [q; q; q] _ [q; q; q] 3); auto with arith. }
      rewrite (trimmed_strip s w1 w2) by auto. reflexivity.
    + exfalso. destruct ST as (q & r & -> & Hq). inversion Hd as [|? ? X]. unfold digit in X. lia.
    + exfalso. destruct ST as (q & r & E & Hq). injection E as <- _. lia.
    + exfalso. destruct ST as (q & r & -> & Hq). cbn in E. destruct Hq as [->| ->]; discriminate.
    + exfalso. destruct ST as (q & r & -> & Hq). cbn in E. destruct Hq as [->| ->]; discriminate.
    + exfalso. destruct ST as (q & r & -> & Hq). cbn in E. destruct Hq as [->| ->]; discriminate.
    + exfalso. destruct ST as (q & r & E & Hq). destruct ip as [|x ip]; [congruence|]. injection E as -> _. inversion Hi as [|? ? X]. unfold digit in X. lia.
  - destruct (set_denotes_plain s v A D ST) as (Ns & D' & NT). rewrite set_value_plain by auto.
    assert (P : parse_value sp isdigit lower ([] ++ s ++ []) = Ok (val_of_lit v)) by (destruct T as [T1 T2]; apply parse_value_stripped; auto).
    cbn [app] in P. rewrite app_nil_r in P. rewrite P. destruct v; try reflexivity. exfalso. apply (NT s0). reflexivity.
Qed.
(** Any other value that does not begin with a quote is not a literal. *)
Theorem set_value_other : forall s, s <> [] -> Forall (fun c => c < 128)%N s -> trimmed sp s -> ~ starts_quoted s -> (forall v, ~ set_denotes sp s v) ->
  set_value sp isdigit lower s = Err ValueError.
Proof.
  intros s Ns A T NQ D. rewrite set_value_plain by auto.
  assert (P : parse_value sp isdigit lower ([] ++ s ++ []) = Ok (VStr s)).
  { destruct T as [T1 T2]. apply parse_value_other; auto. intros v Dv. apply (D v). destruct Dv as [|q q' s Hq Hq'|ds Hd|ds Hd|s E|s E|s E|ip fp Hi Hf]; try (constructor; assumption).
    - congruence.
    - exfalso. apply NQ. exists q, (s ++ [q']). auto. }
  cbn [app] in P. rewrite app_nil_r in P. rewrite P. reflexivity.
Qed.
(** A value that begins with a quote is always taken as a text. *)
Lemma set_value_quoted : forall s, starts_quoted s -> exists x, set_value sp isdigit lower s = Ok (VStr x).
Proof.
  intros s (q & r & -> & Hq). unfold set_value. rewrite (proj2 (quote_spec q) Hq).
  destruct (text_eqb _ _ || text_eqb _ _); eexists; reflexivity.
Qed.
End Value.

(** ** The text of a SET *)
Lemma join_split_on : forall sep s, join [sep] (split_on sep s) = s.
Proof.
  intros sep s. rewrite <- (split_on_join sep s) at 2. generalize (split_on sep s). intro l. induction l as [|a l IH]; [reflexivity|]. cbn [join join_with].
  destruct l; [reflexivity|]. rewrite IH. reflexivity.
Qed.
Lemma set_parts_spec : forall sp k v, ~ In 61%N k -> set_parts sp (k ++ 61%N :: v) = (strip sp k, strip sp v).
Proof. intros sp k v N. unfold set_parts. rewrite split_on_one by exact N. cbn [hd tl]. rewrite join_split_on. reflexivity. Qed.

(** ** Where a SET goes *)
Lemma split_on_hd : forall sep s, ~ In sep s -> hd [] (split_on sep s) = s.
Proof. intros sep s N. rewrite split_on_none by exact N. reflexivity. Qed.
Definition route (key : text) : target :=
  let name := skipn 1 (hd [] (split_on 46 key)) in
  if mem name [t "databases"; t "imports"; t "sources"; t "defines"; t "variables"; t "options"; t "caches"] then TConf (skipn 1 key)
  else if text_eqb name (t "virtual_views") then TConf (t "databases." ++ skipn 1 key)
  else if text_eqb (firstn 7 key) (t "@config") then TConf (strip blank (skipn 8 key))
  else TVar key.
Lemma set_target_route : forall key, set_target key =
  if text_eqb (map lower1 (firstn 6 key)) (t "global") then (true, route (strip blank (skipn 6 key))) else (false, route key).
Proof. intro key. unfold set_target, route. destruct (text_eqb (map lower1 (firstn 6 key)) (t "global")); reflexivity. Qed.
Lemma ordinary_route : forall x, ordinary x -> route x = TVar x.
Proof.
  intros x (name & X & N & R & P). unfold route. cbv zeta.
  assert (HN : skipn 1 (hd [] (split_on 46 x)) = name).
  { destruct X as [->|[rest ->]].
    - rewrite split_on_hd; [reflexivity|]. intro I. cbn in I. destruct I as [I|I]; [discriminate|exact (N I)].
    - change (t "@" ++ name ++ t "." ++ rest) with ((64%N :: name) ++ 46%N :: rest). rewrite split_on_one; [reflexivity|]. intro I. destruct I as [I|I]; [discriminate|exact (N I)]. }
  rewrite HN.
  assert (mem name [t "databases"; t "imports"; t "sources"; t "defines"; t "variables"; t "options"; t "caches"] = false) as ->.
  { destruct (mem _ _) eqn:E; [|reflexivity]. apply mem_In in E. exfalso. apply R. unfold reserved. cbn [In] in *. tauto. }
  assert (text_eqb name (t "virtual_views") = false) as ->.
  { apply text_eqb_neq. intros ->. apply R. unfold reserved. cbn [In]. tauto. }
  assert (text_eqb (firstn 7 x) (t "@config") = false) as ->; [|reflexivity].
  apply text_eqb_neq. intro E. apply P. destruct X as [->|[rest ->]]; cbn in E; injection E as E; cbn; [exact E|].
  destruct name as [|a0 [|a1 [|a2 [|a3 [|a4 [|a5 name]]]]]]; cbn in *; try discriminate; try exact E;
    injection E; intros; try (subst; try discriminate).
Qed.
Lemma ordinary_target : forall x, ordinary x -> set_target x = (false, TVar x).
Proof.
  intros x O. rewrite set_target_route, (ordinary_route x O).
  assert (text_eqb (map lower1 (firstn 6 x)) (t "global") = false) as ->; [|reflexivity].
  apply text_eqb_neq. intro E. destruct O as (name & X & _). destruct X as [->|[rest ->]]; cbn in E; discriminate.
Qed.
Lemma lower_global : forall g : text, length g = 6 -> forall r : text, firstn 6 (g ++ r) = g /\ skipn 6 (g ++ r) = r.
Proof. intros g L r. rewrite firstn_app, skipn_app, L. rewrite <- L, firstn_all, skipn_all, Nat.sub_diag. cbn [firstn skipn app]. rewrite app_nil_r. auto. Qed.
Lemma global_target : forall g w x, map lower1 g = t "global" -> Forall (fun c => blank c = true) w -> trimmed blank x -> ordinary x -> set_target (g ++ w ++ x) = (true, TVar x).
Proof.
  intros g w x G W T O. assert (L : length g = 6) by (rewrite <- (map_length lower1), G; reflexivity).
  rewrite set_target_route. destruct (lower_global g L (w ++ x)) as [-> ->]. rewrite G, text_eqb_refl.
  assert (strip blank (w ++ x) = x) as -> by (rewrite <- (app_nil_r x) at 1; apply trimmed_strip; auto). rewrite ordinary_route by exact O. reflexivity.
Qed.
Lemma config_target : forall r, exists k, set_target (t "@config" ++ r) = (false, TConf k).
Proof.
  intro r. rewrite set_target_route. change (firstn 6 (t "@config" ++ r)) with (t "@confi"). change (text_eqb (map lower1 (t "@confi")) (t "global")) with false. cbn iota.
  unfold route. cbv zeta. change (firstn 7 (t "@config" ++ r)) with (t "@config"). rewrite text_eqb_refl.
  destruct (mem _ _); [eexists; reflexivity|]. destruct (text_eqb _ (t "virtual_views")); eexists; reflexivity.
Qed.
Lemma reserved_target : forall n, In n reserved -> exists k, set_target (t "@" ++ n) = (false, TConf k).
Proof. intros n I. cbn in I. repeat (destruct I as [<-|I]; [eexists; unfold set_target; cbn; reflexivity|]). destruct I. Qed.

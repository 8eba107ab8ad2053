(** C256: YIELD_ARRAY. *)
From Verif Require Import Base Yield_Syntax Yield_Spec Yield_Model.
Local Open Scope nat_scope.
Section Props.
Variable V : Type.
Variable null : V.
Variable array_of : V -> option (list V).
Variable on_empty : list V -> list (list V).
Notation is_array := (fun v l => array_of v = Some l).
Notation yielded := (yielded V is_array).
Notation calculate := (calculate V array_of).
Notation get := (get V array_of).
Notation compile := (compile V).
Notation peek := (peek V null).
Notation advance := (advance V).
Notation alive := (alive V).
Notation lockstep := (lockstep V null).
Notation size := (size V).
Lemma calculate_yielded : forall v, yielded v (calculate v).
Proof.
  intros v. unfold Yield_Model.calculate. destruct (array_of v) as [l|] eqn:E; [apply Y_array, E|apply Y_other]. intros l H. rewrite E in H. discriminate H.
Qed.
Lemma yielded_only : forall v l, yielded v l -> l = calculate v.
Proof.
  intros v l H. unfold Yield_Model.calculate. destruct H as [l H|N]; [rewrite H; reflexivity|]. destruct (array_of v) as [l|] eqn:E; [destruct (N l eq_refl)|reflexivity].
Qed.
Definition at_ (k : nat) (c : cell V) : V := match c with Value _ v => v | Generator _ l => nth k l null end.
Lemma at_advance : forall c k, at_ k (advance c) = at_ (S k) c.
Proof. intros [v|[|v l]] k; try reflexivity. destruct k; reflexivity. Qed.
Lemma at_peek : forall c, peek c = at_ 0 c.
Proof. intros [v|[|v l]]; reflexivity. Qed.
Lemma size_advance : forall c, size (advance c) = pred (size c).
Proof. intros [v|[|v l]]; reflexivity. Qed.
Lemma none_alive : forall cs, existsb alive cs = false <-> list_max (map size cs) = 0.
Proof.
  induction cs as [|c cs IH]; [split; reflexivity|]. cbn [existsb map]. change (list_max (size c :: map size cs)) with (Nat.max (size c) (list_max (map size cs))).
  destruct c as [v|[|v l]]; cbn [Yield_Model.alive Yield_Model.size orb length]; [rewrite Nat.max_0_l; exact IH|rewrite Nat.max_0_l; exact IH|]. split; [discriminate|lia].
Qed.
Lemma max_advance : forall cs, list_max (map size (map advance cs)) = pred (list_max (map size cs)).
Proof.
  induction cs as [|c cs IH]; [reflexivity|]. cbn [map]. change (Nat.max (size (advance c)) (list_max (map size (map advance cs))) = pred (Nat.max (size c) (list_max (map size cs)))).
  rewrite IH, size_advance. lia.
Qed.
Lemma lockstep_is : forall n cs, list_max (map size cs) = n -> lockstep n cs = map (fun k => map (at_ k) cs) (seq 0 n).
Proof.
  induction n as [|n IH]; intros cs M; [reflexivity|]. cbn [Yield_Model.lockstep seq map]. destruct (existsb alive cs) eqn:E; [|apply none_alive in E; lia].
  f_equal; [apply map_ext, at_peek|]. rewrite IH by (rewrite max_advance, M; reflexivity). rewrite <- seq_shift, map_map. apply map_ext. intros k. rewrite map_map. apply map_ext. intros c. apply at_advance.
Qed.
Notation cells r items := (map (get r) (map compile items)).
Lemma cell_shows : forall r k i, shows V null is_array r k i (at_ k (get r (compile i))).
Proof.
  intros r k [e|e]; cbn [Yield_Model.compile Yield_Model.get at_]; [constructor|]. destruct (nth_error (calculate (e r)) k) as [v|] eqn:E.
  - rewrite (nth_error_nth _ _ null E). exact (Sh_element V null _ r k e _ v (calculate_yielded _) E).
  - apply nth_error_None in E. rewrite nth_overflow by exact E. exact (Sh_over V null _ r k e _ (calculate_yielded _) E).
Qed.
Lemma row_shows : forall r k items, Forall2 (shows V null is_array r k) items (map (at_ k) (cells r items)).
Proof. intros r k. induction items as [|i items IH]; [constructor|]. cbn [map]. constructor; [apply cell_shows|exact IH]. Qed.
Lemma generators : forall r items, existsb (is_generator V) (cells r items) = true <-> Exists (is_yield V) items.
Proof.
  intros r. induction items as [|i items IH]; [split; [discriminate|intros H; inversion H]|]. cbn [map existsb]. rewrite orb_true_iff, IH. split.
  - intros [H|H]; [apply Exists_cons_hd; destruct i; [discriminate H|exact I]|apply Exists_cons_tl, H].
  - intros H. inversion H as [x l Y|x l Y]; subst; [left; destruct i; [destruct Y|reflexivity]|right; exact Y].
Qed.
Lemma yield_size : forall e items r, In (Yield e) items -> length (calculate (e r)) <= list_max (map size (cells r items)).
Proof.
  intros e items r I. assert (F : Forall (fun k => k <= list_max (map size (cells r items))) (map size (cells r items))) by (apply list_max_le; lia).
  rewrite Forall_forall in F. apply F. apply in_map_iff. exists (get r (compile (Yield e))). split; [reflexivity|]. apply in_map, in_map, I.
Qed.
Lemma max_attained : forall items r, list_max (map size (cells r items)) <> 0 -> exists e, In (Yield e) items /\ length (calculate (e r)) = list_max (map size (cells r items)).
Proof.
  intros items r. induction items as [|i items IH]; [intros H; destruct (H eq_refl)|]. cbn [map]. change (list_max (size (get r (compile i)) :: map size (cells r items))) with (Nat.max (size (get r (compile i))) (list_max (map size (cells r items)))).
  intros H. destruct (Nat.le_gt_cases (size (get r (compile i))) (list_max (map size (cells r items)))) as [L|L].
  - rewrite Nat.max_r in * by exact L. destruct (IH H) as [e [I E]]. exists e. split; [right; exact I|exact E].
  - rewrite Nat.max_l in * by lia. destruct i as [e|e]; [cbn in L; lia|]. exists e. split; [left; reflexivity|reflexivity].
Qed.
Theorem yield_row : forall items r, yields_something V is_array items r -> rows_from V null is_array items r (row_rows V null array_of on_empty items r).
Proof.
  intros items r Y. unfold row_rows. cbv zeta. split; intros H.
  - rewrite (proj2 (generators r items) H). set (n := list_max (map size (cells r items))).
    assert (N : n <> 0). { destruct (Y H) as [e [v [l [I S]]]]. assert (B := yield_size e items r I). rewrite <- (yielded_only _ _ S) in B. cbn [length] in B. subst n. lia. }
    assert (E : lockstep n (cells r items) = map (fun k => map (at_ k) (cells r items)) (seq 0 n)) by (apply lockstep_is; reflexivity).
    assert (X : expansion V null is_array items r (lockstep n (cells r items))).
    { rewrite E. split.
      - rewrite map_length, seq_length. split.
        + destruct (max_attained items r N) as [e [I A]]. exists e, (calculate (e r)). split; [exact I|]. split; [apply calculate_yielded|exact A].
        + intros e l I S. rewrite (yielded_only _ _ S). apply yield_size, I.
      - intros k vs K. assert (L : k < n).
        { assert (Q := nth_error_Some (map (fun k => map (at_ k) (cells r items)) (seq 0 n)) k). rewrite K, map_length, seq_length in Q. apply Q. discriminate. }
        rewrite (map_nth_error _ _ _ (nth_error_nth' (seq 0 n) 0 ltac:(rewrite seq_length; exact L))) in K. rewrite seq_nth in K by exact L. injection K as <-. apply row_shows. }
    destruct (lockstep n (cells r items)) as [|o out] eqn:O; [|exact X]. destruct n; [destruct (N eq_refl)|discriminate E].
  - destruct (existsb (is_generator V) (cells r items)) eqn:G; [destruct (H (proj1 (generators r items) G))|]. exists (map (at_ 0) (cells r items)). split; [|apply row_shows].
    f_equal. apply map_ext, at_peek.
Qed.
(** C256.  The result is the rows made of each row, in order. *)
Theorem yield_rows : forall items rows, Forall (yields_something V is_array items) rows ->
  exists outs, Forall2 (rows_from V null is_array items) rows outs /\ select V null array_of on_empty items rows = concat outs.
Proof.
  intros items rows F. exists (map (row_rows V null array_of on_empty items) rows). split; [|reflexivity].
  induction F as [|r rows Y F IH]; [constructor|]. cbn [map]. constructor; [apply yield_row, Y|exact IH].
Qed.
(** The rows are determined by the meaning. *)
Lemma shows_only : forall r k i v v', shows V null is_array r k i v -> shows V null is_array r k i v' -> v = v'.
Proof.
  intros r k i v v' H H'. destruct H as [e|e l v S N|e l S N]; inversion H' as [e'|e' l' w S' N'|e' l' S' N']; subst; try reflexivity;
    rewrite (yielded_only _ _ S) in *; rewrite (yielded_only _ _ S') in *; [rewrite N in N'; injection N' as <-; reflexivity| |]; apply nth_error_None in N || apply nth_error_None in N'; congruence.
Qed.
(** One YIELD_ARRAY alone: all elements, in order. *)
Theorem yield_single : forall e rows, Forall (fun r => array_of (e r) <> Some []) rows ->
  select V null array_of on_empty [Yield e] rows = map (fun v => [v]) (concat (map (fun r => calculate (e r)) rows)).
Proof.
  intros e rows F. unfold select. induction F as [|r rows N F IH]; [reflexivity|]. cbn [map concat]. rewrite map_app, IH. f_equal.
  unfold row_rows. cbn [map Yield_Model.compile Yield_Model.get existsb is_generator orb Yield_Model.size]. cbv zeta. change (list_max [length (calculate (e r))]) with (Nat.max (length (calculate (e r))) 0). rewrite Nat.max_0_r.
  rewrite (lockstep_is _ [Generator V (calculate (e r))]) by (change (Nat.max (length (calculate (e r))) 0 = length (calculate (e r))); lia).
  assert (E : map (fun k => map (at_ k) [Generator V (calculate (e r))]) (seq 0 (length (calculate (e r)))) = map (fun v => [v]) (calculate (e r))).
  { cbn [map at_]. clear. generalize (calculate (e r)) as l. induction l as [|v l IH]; [reflexivity|]. cbn [length seq map nth]. f_equal. rewrite <- seq_shift, map_map. exact IH. }
  rewrite E. destruct (calculate (e r)) as [|v l] eqn:C; [|reflexivity]. unfold Yield_Model.calculate in C. destruct (array_of (e r)) as [l|]; [subst l; destruct (N eq_refl)|discriminate C].
Qed.
End Props.
Print Assumptions yield_row.
Print Assumptions yield_rows.
Print Assumptions yield_single.

(** Values: numbers, NULL and arrays of numbers.  SELECT YIELD_ARRAY(a), x, YIELD_ARRAY(b) FROM t with (a, x, b) = ([1, 2, 3], 7, 9) and (NULL, 8, []). *)
Inductive yv := YNull | YNum (n : nat) | YArr (l : list nat).
Definition yv_array (v : yv) : option (list yv) := match v with YArr l => Some (map YNum l) | _ => None end.
Definition y_items : list (item yv) := [Yield (fun r => r (t "a")); Plain (fun r => r (t "x")); Yield (fun r => r (t "b"))].
Definition y_row (a x b : yv) : yrow yv := fun n => if text_eqb n (t "a") then a else if text_eqb n (t "x") then x else b.
Definition y_rows : list (yrow yv) := [y_row (YArr [1; 2; 3]) (YNum 7) (YNum 9); y_row YNull (YNum 8) (YArr [])].
Example y_something : Forall (yields_something yv (fun v l => yv_array v = Some l) y_items) y_rows.
Proof.
  repeat constructor; intros _; exists (fun r : yrow yv => r (t "a")).
  - exists (YNum 1), [YNum 2; YNum 3]. split; [left; reflexivity|apply Y_array; reflexivity].
  - exists YNull, []. split; [left; reflexivity|apply Y_other; intros l H; discriminate H].
Qed.
Example y_result : select yv YNull yv_array (fun _ => []) y_items y_rows =
  [[YNum 1; YNum 7; YNum 9]; [YNum 2; YNum 7; YNull]; [YNum 3; YNum 7; YNull]; [YNull; YNum 8; YNull]].
Proof. reflexivity. Qed.

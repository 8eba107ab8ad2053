(** Property theorems C17, C18, C19 and C44 (string functions). *)
From Coq Require Import SpecFloat.
From Verif Require Import Base PyVal Utils_Model Utils_Proofs Calc_Model Calc_Proofs Calc_Props Str_Model Str_Spec Str_Proofs.
Open Scope Z_scope.

(** evaluation of three- and four-argument functions by the query *)
Definition fun3 (f : val -> val -> val -> res val) (args : list val) : res val :=
  match args with [a; b; c] => f a b c | _ => Err TypeError end.
Definition fun4 (f : val -> val -> val -> val -> res val) (args : list val) : res val :=
  match args with [a; b; c; d] => f a b c d | _ => Err TypeError end.
Definition sql3 (f : val -> val -> val -> res val) (args : list val) : val :=
  match call_func (dispatch 3 3) (fun3 f) args with Ok v => v | Err _ => VNone end.
Definition sql4 (f : val -> val -> val -> val -> res val) (args : list val) : val :=
  match call_func (dispatch 4 4) (fun4 f) args with Ok v => v | Err _ => VNone end.

Section P.
Variable frepr : spec_float -> text.

(** ** C17 *)

(** SUBSTRING(s, n, l) for n >= 1, l >= 0: the characters n .. n+l-1. *)
Theorem substring_positive : forall s n l, 1 <= n -> 0 <= l ->
  exists r, sql3 (mysql_substring frepr) [VStr s; VInt n; VInt l] = VStr r /\ chars_between s n (n + l - 1) r.
Proof.
  intros s n l Hn Hl. eexists. split; [reflexivity|]. intro i.
  rewrite slice_nth by lia.
  replace (n + Z.of_nat i <=? n + l - 1) with (n - 1 + Z.of_nat i <? n + l - 1); [reflexivity|].
  destruct (Z.ltb_spec (n - 1 + Z.of_nat i) (n + l - 1)), (Z.leb_spec (n + Z.of_nat i) (n + l - 1)); auto; lia.
Qed.

(** SUBSTRING(s, n) for n >= 1: everything from character n on. *)
Theorem substring_tail : forall s n, 1 <= n ->
  exists r, sql3 (mysql_substring frepr) [VStr s; VInt n] = VStr r /\ chars_between s n (Z.of_nat (length s)) r.
Proof.
  intros s n Hn. eexists. split; [reflexivity|]. intro i. rewrite slice_from_nth by lia.
  destruct (Z.leb_spec (n + Z.of_nat i) (Z.of_nat (length s))); [reflexivity|].
  apply nth_beyond. lia.
Qed.

(** SUBSTRING is NULL for NULL text, and for a NULL position. *)
Theorem substring_null : forall s n l, sql3 (mysql_substring frepr) [VNone; n; l] = VNone /\
  sql3 (mysql_substring frepr) [s; VNone; l] = VNone.
Proof.
  intros s n l. split; [reflexivity|].
  change (guarded (mysql_substring frepr s VNone l) = VNone). unfold mysql_substring.
  destruct (is_none s); [reflexivity|]. destruct (estr frepr s); reflexivity.
Qed.

(** LEFT(s, n), n >= 0: the first n characters; RIGHT(s, n), n >= 1: the last n characters. *)
Theorem left_right_correct : forall s n,
  (0 <= n -> exists r, sql2 (mysql_left frepr) (VStr s) (VInt n) = VStr r /\ chars_between s 1 n r) /\
  (1 <= n -> exists r, sql2 (mysql_right frepr) (VStr s) (VInt n) = VStr r /\
               chars_between s (Z.max 1 (Z.of_nat (length s) - n + 1)) (Z.of_nat (length s)) r).
Proof.
  intros s n. split; intro Hn.
  - eexists. split; [reflexivity|]. intro i.
    transitivity (nth_error (pyslice s (Some 0) (Some n)) i).
    { f_equal. unfold pyslice, clampidx. cbn [Z.ltb Z.compare]. rewrite (Z.min_l 0) by lia. reflexivity. }
    rewrite slice_nth by lia. rewrite Z.add_0_l.
    destruct (Z.ltb_spec (Z.of_nat i) n), (Z.leb_spec (1 + Z.of_nat i) n); auto; lia.
  - eexists. split; [reflexivity|]. intro i. set (L := Z.of_nat (length s)).
    transitivity (nth_error (pyslice s (Some (Z.max 0 (L - n))) None) i).
    { f_equal. unfold pyslice, clampidx. fold L.
      replace (- n <? 0) with true by (symmetry; apply Z.ltb_lt; lia).
      replace (Z.max 0 (L - n) <? 0) with false by (symmetry; apply Z.ltb_ge; lia).
      replace (Z.max 0 (- n + L)) with (Z.min (Z.max 0 (L - n)) L) by lia. reflexivity. }
    rewrite slice_from_nth by lia.
    destruct (Z.leb_spec (Z.max 1 (L - n + 1) + Z.of_nat i) L).
    + f_equal. lia.
    + apply nth_beyond. unfold L in *. lia.
Qed.

(** INSERT(s, x, l, new) for 1 <= x and 0 <= l: the l characters from position x are replaced by new. *)
Theorem insert_correct : forall s new x l, 1 <= x -> 0 <= l ->
  exists pre mid post, s = pre ++ mid ++ post /\
    Z.of_nat (length pre) = Z.min (x - 1) (Z.of_nat (length s)) /\
    Z.of_nat (length mid) = Z.min l (Z.of_nat (length s) - Z.of_nat (length pre)) /\
    sql4 (mysql_insert frepr) [VStr s; VInt x; VInt l; VStr new] = VStr (pre ++ new ++ post).
Proof.
  intros s new x l Hx Hl. set (L := Z.of_nat (length s)).
  set (a := Z.to_nat (Z.min (x - 1) L)). set (b := Z.to_nat (Z.min (x + l - 1) L)).
  assert (Hab : (a <= b <= length s)%nat) by (unfold a, b, L; lia).
  exists (firstn a s), (firstn (b - a) (skipn a s)), (skipn b s).
  assert (E : skipn a s = firstn (b - a) (skipn a s) ++ skipn b s).
  { rewrite <- (firstn_skipn (b - a) (skipn a s)) at 1. f_equal. rewrite skipn_skipn. f_equal. lia. }
  split; [rewrite <- E, firstn_skipn; reflexivity|].
  rewrite !firstn_length, skipn_length.
  split; [unfold a, L; lia|]. split; [unfold a, b, L in *; lia|].
  change (guarded (mysql_insert frepr (VStr s) (VInt x) (VInt l) (VStr new)) = VStr (firstn a s ++ new ++ skipn b s)).
  cbn [mysql_insert estr ensure_str need_str bind need_int as_int guarded]. f_equal. f_equal; [|f_equal].
  - unfold pyslice, clampidx. replace (x - 1 <? 0) with false by (symmetry; apply Z.ltb_ge; lia).
    cbn [skipn]. rewrite Nat.sub_0_r. reflexivity.
  - unfold pyslice, clampidx. replace (x + l - 1 <? 0) with false by (symmetry; apply Z.ltb_ge; lia).
    fold L. fold b. rewrite firstn_all2; [reflexivity|]. rewrite skipn_length. lia.
Qed.

(** C17 is false of the code outside these ranges (the text is "Sakila" / "abc"). *)
Theorem substring_negative_refuted :
  (* SUBSTRING('Sakila', -3) should be 'ila' *)
  sql3 (mysql_substring frepr) [VStr (t "Sakila"); VInt (-3)] = VStr (t "kila") /\
  (* SUBSTRING('Sakila', 0) should be '' *)
  sql3 (mysql_substring frepr) [VStr (t "Sakila"); VInt 0] = VStr (t "a") /\
  (* RIGHT('abc', 0) should be '' *)
  sql2 (mysql_right frepr) (VStr (t "abc")) (VInt 0) = VStr (t "abc") /\
  (* LEFT('abc', -1) should be '' *)
  sql2 (mysql_left frepr) (VStr (t "abc")) (VInt (-1)) = VStr (t "ab") /\
  (* SUBSTRING('Sakila', 2, -1) should be '' *)
  sql3 (mysql_substring frepr) [VStr (t "Sakila"); VInt 1; VInt (-2)] = VStr (t "Saki").
Proof. repeat split; reflexivity. Qed.

(** ** C18 *)

(** CONCAT is NULL iff an argument is NULL, otherwise the concatenation in order of the argument texts. *)
Lemma map_res_estr : forall args,
  (In VNone args -> exists e, map_res (estr frepr) args = Err e) /\
  (~ In VNone args -> exists l, map_res (estr frepr) args = Ok l /\
     Forall2 (fun v x => ensure_str frepr v = Ok (VStr x)) args l).
Proof.
  induction args as [|v args [IH1 IH2]]; split; intro H.
  - destruct H.
  - exists []. split; [reflexivity|constructor].
  - cbn [map_res]. destruct (estr frepr v) as [x|e] eqn:E; cbn [bind]; [|eauto].
    destruct H as [->|H]; [discriminate|]. destruct (IH1 H) as [e ->]. cbn. eauto.
  - assert (Hv : v <> VNone) by (intro K; apply H; left; auto).
    destruct (ensure_str_total frepr v Hv) as [x E].
    destruct IH2 as (l & El & F); [intro K; apply H; right; auto|].
    exists (x :: l). cbn [map_res]. unfold estr at 1. rewrite E. cbn [bind need_str]. rewrite El. split; [reflexivity|].
    constructor; auto.
Qed.

Theorem concat_null_iff : forall args,
  (In VNone args -> sqln (mysql_concat frepr) args = VNone) /\
  (~ In VNone args -> exists l, Forall2 (fun v x => ensure_str frepr v = Ok (VStr x)) args l /\
     sqln (mysql_concat frepr) args = VStr (List.concat l)).
Proof.
  intro args. rewrite sqln_eq. unfold mysql_concat. destruct (map_res_estr args) as [H1 H2]. split; intro H.
  - destruct (H1 H) as [e ->]. reflexivity.
  - destruct (H2 H) as (l & -> & F). exists l. auto.
Qed.

(** CONCAT_WS glues the argument texts with the separator when none is NULL. *)
Theorem concat_ws_correct : forall sep args, ~ In VNone args ->
  exists l, Forall2 (fun v x => ensure_str frepr v = Ok (VStr x)) args l /\
    sqln (mysql_concat_ws frepr) (VStr sep :: args) = VStr (glue sep l).
Proof.
  intros sep args H. rewrite sqln_eq. unfold mysql_concat_ws. cbn [need_str bind].
  destruct (map_res_estr args) as [_ H2]. destruct (H2 H) as (l & -> & F). exists l. split; auto.
  cbn [bind guarded]. rewrite join_glue. reflexivity.
Qed.

(** C18 is false of the code for CONCAT_WS with NULL arguments: the result is NULL instead of
    skipping them. *)
Theorem concat_ws_null_refuted : forall sep args, In VNone args ->
  sqln (mysql_concat_ws frepr) (VStr sep :: args) = VNone.
Proof.
  intros sep args H. rewrite sqln_eq. unfold mysql_concat_ws. cbn [need_str bind].
  destruct (map_res_estr args) as [H1 _]. destruct (H1 H) as [e ->]. reflexivity.
Qed.

(** REVERSE is an involution on texts; REPEAT(s, n) is n copies. *)
Theorem reverse_involution : forall s,
  exists r, sql1 (mysql_reverse frepr) (VStr s) = VStr r /\ length r = length s /\
    sql1 (mysql_reverse frepr) (VStr r) = VStr s /\
    forall i, (i < length s)%nat -> nth_error r i = nth_error s (length s - 1 - i).
Proof.
  intro s. exists (rev s). split; [reflexivity|]. split; [apply rev_length|].
  split; [change (VStr (rev (rev s)) = VStr s); rewrite rev_involutive; reflexivity|].
  induction s as [|c s IH]; intros i Hi; [cbn in Hi; lia|].
  cbn [rev length] in *. destruct (Nat.lt_ge_cases i (length s)) as [K|K].
  - rewrite nth_error_app1 by (rewrite rev_length; lia). rewrite IH by auto.
    replace (S (length s) - 1 - i)%nat with (S (length s - 1 - i)) by lia. reflexivity.
  - rewrite nth_error_app2 by (rewrite rev_length; lia). rewrite rev_length.
    replace (i - length s)%nat with 0%nat by lia. replace (S (length s) - 1 - i)%nat with 0%nat by lia. reflexivity.
Qed.

Theorem repeat_copies : forall s n,
  exists r, sql2 (mysql_repeat frepr) (VStr s) (VInt n) = VStr r /\
    Z.of_nat (length r) = Z.max 0 n * Z.of_nat (length s) /\
    forall i, (i < length r)%nat -> nth_error r i = nth_error s (i mod length s).
Proof.
  intros s n. exists (List.concat (repeat s (Z.to_nat n))). split; [reflexivity|]. split.
  - replace (Z.max 0 n) with (Z.of_nat (Z.to_nat n)) by lia. generalize (Z.to_nat n) as k. clear n.
    induction k as [|k IH]; [reflexivity|]. cbn [repeat List.concat]. rewrite app_length, Nat2Z.inj_add, IH. lia.
  - generalize (Z.to_nat n) as k. clear n. intros k.
    destruct s as [|c s0] eqn:Es.
    { intros i Hi. exfalso. revert Hi. induction k as [|k IH]; cbn [repeat List.concat app length]; [lia|exact IH]. }
    rewrite <- Es. assert (Ls : length s <> 0%nat) by (rewrite Es; discriminate). clear Es.
    induction k as [|k IH]; intros i Hi; [cbn in Hi; lia|].
    cbn [repeat List.concat] in *. destruct (Nat.lt_ge_cases i (length s)) as [K|K].
    + rewrite nth_error_app1 by auto. rewrite Nat.mod_small by auto. reflexivity.
    + rewrite nth_error_app2 by auto. rewrite app_length in Hi. rewrite IH by lia. f_equal.
      replace i with ((i - length s) + 1 * length s)%nat at 2 by lia. rewrite Nat.mod_add; auto.
Qed.

(** ** C19 *)

(** ELT(n, v1..vk) is vn for 1 <= n < k, and NULL for n >= k. *)
Theorem elt_inside : forall n vs,
  (forall v, 1 <= n < Z.of_nat (length vs) -> nth_error vs (Z.to_nat (n - 1)) = Some v ->
     sqln mysql_elt (VInt n :: vs) = v) /\
  (Z.of_nat (length vs) < n -> sqln mysql_elt (VInt n :: vs) = VNone).
Proof.
  intros n vs. rewrite sqln_eq. cbn [mysql_elt need_int as_int bind]. split.
  - intros v H E. replace (n <? Z.of_nat (length vs)) with true by (symmetry; apply Z.ltb_lt; lia).
    unfold pyindex. replace (n - 1 <? 0) with false by (symmetry; apply Z.ltb_ge; lia).
    replace (n - 1 <? 0) with false by (symmetry; apply Z.ltb_ge; lia). rewrite E. reflexivity.
  - intro H. replace (n <? Z.of_nat (length vs)) with false by (symmetry; apply Z.ltb_ge; lia). reflexivity.
Qed.

(** C19 is false of the code for ELT at the last position and at 0: ELT(k, v1..vk) is NULL for every k,
    and ELT(0, v1..vk) is vk. *)
Theorem elt_last_refuted : forall vs v,
  sqln mysql_elt (VInt (Z.of_nat (length vs) + 1) :: vs ++ [v]) = VNone /\
  sqln mysql_elt (VInt 0 :: vs ++ [v]) = v.
Proof.
  intros vs v. rewrite !sqln_eq. cbn [mysql_elt need_int as_int bind]. rewrite app_length. cbn [length]. split.
  - replace (Z.of_nat (length vs) + 1 <? Z.of_nat (length vs + 1)) with false by (symmetry; apply Z.ltb_ge; lia).
    reflexivity.
  - replace (0 <? Z.of_nat (length vs + 1)) with true by (symmetry; apply Z.ltb_lt; lia).
    unfold pyindex. change (0 - 1) with (-1). change (-1 <? 0) with true. cbv zeta. rewrite app_length. cbn [length].
    replace (-1 + Z.of_nat (length vs + 1) <? 0) with false by (symmetry; apply Z.ltb_ge; lia).
    rewrite nth_error_app2 by lia. replace (Z.to_nat (-1 + Z.of_nat (length vs + 1)) - length vs)%nat with 0%nat by lia.
    reflexivity.
Qed.

(** FIELD(x, v1..vk) is the first position equal to x, or 0. *)
Theorem field_first : forall x vs, x <> VNone ->
  exists n, sqln mysql_field (x :: vs) = VInt n /\ first_position (fun v => pyeq v x = true) vs n.
Proof.
  intros x vs H. rewrite sqln_eq. cbn [mysql_field]. assert (is_none x = false) as -> by (destruct x; cbn; congruence).
  eexists. split; [reflexivity|]. apply index_first.
Qed.

(** FIND_IN_SET(x, s) is the first position of x in the comma separated list s, or 0. *)
Theorem find_in_set_first : forall x s parts, cut [44%N] s parts ->
  exists n, sql2 (mysql_find_in_set frepr) (VStr x) (VStr s) = VInt n /\ first_position (fun p => p = x) parts n.
Proof.
  intros x s parts C. rewrite sql2_eq. unfold mysql_find_in_set. cbn [is_none estr ensure_str bind need_str].
  destruct (py_split_cut s [44%N]) as (l & E & C'); [discriminate|].
  assert (l = parts) by (eapply cut_unique; eauto; discriminate). subst l. rewrite E. cbn [guarded].
  eexists. split; [reflexivity|]. assert (F := index_first (VStr x) (map VStr parts)).
  assert (PE : forall p, pyeq (VStr p) (VStr x) = true <-> p = x).
  { intro p. rewrite <- tcmp_eq. unfold pyeq. cbn. destruct (tcmp p x); intuition congruence. }
  destruct F as [[F1 F2]|(i & v & F1 & F2 & F3 & F4)].
  - left. split; auto. intros p Hp K. apply (F2 (VStr p)); [apply in_map; auto|apply PE; auto].
  - rewrite nth_error_map in F2. destruct (nth_error parts i) as [p|] eqn:Ep; [|discriminate].
    injection F2 as <-. right. exists i, p. split; auto. split; auto. split; [apply PE; auto|].
    intros j y Hj Hy K. apply (F4 j (VStr y) Hj); [rewrite nth_error_map, Hy; reflexivity|apply PE; auto].
Qed.

(** SUBSTRING_INDEX(s, d, c), c >= 0: the text before the c-th occurrence of d (all of s if there are fewer). *)
Theorem substring_index_positive : forall s d c parts, d <> [] -> 0 <= c -> cut d s parts ->
  sql3 (mysql_substring_index frepr) [VStr s; VStr d; VInt c] = VStr (glue d (firstn (Z.to_nat c) parts)).
Proof.
  intros s d c parts Hd Hc C.
  change (guarded (mysql_substring_index frepr (VStr s) (VStr d) (VInt c)) = VStr (glue d (firstn (Z.to_nat c) parts))).
  unfold mysql_substring_index. cbn [is_none estr ensure_str bind need_str need_int as_int].
  replace (c <? 0) with false by (symmetry; apply Z.ltb_ge; lia).
  destruct (py_split_cut s d Hd) as (l & E & C').
  assert (l = parts) by (eapply cut_unique; eauto). subst l. rewrite E. cbn [bind guarded]. rewrite join_glue.
  f_equal. f_equal. unfold pyslice, clampidx. replace (c <? 0) with false by (symmetry; apply Z.ltb_ge; lia).
  cbn [skipn]. rewrite Nat.sub_0_r. destruct (Z.le_ge_cases c (Z.of_nat (length parts))).
  - rewrite Z.min_l by lia. reflexivity.
  - rewrite Z.min_r by lia. rewrite Nat2Z.id, firstn_all, firstn_all2 by lia. reflexivity.
Qed.

(** Every text has its cut, so the theorems above apply to every text; gluing gives the text back. *)
Theorem cut_exists : forall s d, d <> [] -> exists parts, cut d s parts /\ glue d parts = s.
Proof.
  intros s d Hd. destruct (py_split_cut s d Hd) as (l & _ & C). exists l. split; auto. apply cut_glue; auto.
Qed.

(** C19 is false of the code for negative counts: the first |c| parts are dropped instead of the last
    |c| parts kept. *)
Theorem substring_index_negative_refuted :
  sql3 (mysql_substring_index frepr) [VStr (t "www.mysql.com"); VStr (t "."); VInt (-1)] = VStr (t "mysql.com").
Proof. reflexivity. Qed.

(** ** C44: REPLACE, STRCMP, prefix/suffix/substring tests, TRIM, lengths *)

(** REPLACE(s, old, new): new is put in place of the leftmost non-overlapping occurrences of old. *)
Theorem replace_all : forall s old new parts, old <> [] -> cut old s parts ->
  sql3 (mysql_replace frepr) [VStr s; VStr old; VStr new] = VStr (glue new parts).
Proof.
  intros s old new parts Hd C.
  change (guarded (mysql_replace frepr (VStr s) (VStr old) (VStr new)) = VStr (glue new parts)).
  unfold mysql_replace. cbn [is_none estr ensure_str bind need_str guarded].
  destruct (py_split_cut s old Hd) as (l & E & C').
  assert (l = parts) by (eapply cut_unique; eauto). subst l.
  destruct old as [|c o]; [congruence|]. cbn [py_split] in E. cbn [py_replace].
  f_equal. rewrite <- join_glue. f_equal. congruence.
Qed.
Theorem replace_self : forall s d, d <> [] ->
  sql3 (mysql_replace frepr) [VStr s; VStr d; VStr d] = VStr s.
Proof.
  intros s d Hd. destruct (cut_exists s d Hd) as (l & C & G). rewrite (replace_all s d d l Hd C). congruence.
Qed.

(** STRCMP is -1 / 0 / 1 as the first text is before / equal to / after the second. *)
Theorem strcmp_order : forall a b,
  (sql2 (mysql_strcmp frepr) (VStr a) (VStr b) = VInt 0 <-> a = b) /\
  (sql2 (mysql_strcmp frepr) (VStr a) (VStr b) = VInt (-1) <-> lex_lt a b) /\
  (sql2 (mysql_strcmp frepr) (VStr a) (VStr b) = VInt 1 <-> lex_lt b a).
Proof.
  intros a b. rewrite sql2_eq. unfold mysql_strcmp. cbn [is_none orb estr ensure_str bind need_str guarded].
  rewrite <- !tcmp_lex, (tcmp_sym a b).
  destruct (text_eqb a b) eqn:E.
  - apply text_eqb_spec in E. subst b. assert (tcmp a a = Eq) as -> by (apply tcmp_eq; auto). cbn. intuition congruence.
  - apply text_eqb_neq in E. assert (tcmp a b <> Eq) by (intro K; apply tcmp_eq in K; congruence).
    destruct (tcmp a b); cbn; intuition congruence.
Qed.

Theorem affix_tests : forall a b,
  (sql2 (mysql_startswith frepr) (VStr a) (VStr b) = bit true <-> exists r, a = b ++ r) /\
  (sql2 (mysql_endswith frepr) (VStr a) (VStr b) = bit true <-> exists r, a = r ++ b) /\
  (sql2 (mysql_contains frepr) (VStr a) (VStr b) = bit true <-> exists p r, a = p ++ b ++ r).
Proof.
  intros a b. rewrite !sql2_eq.
  unfold mysql_startswith, mysql_endswith, mysql_contains. cbn [is_none orb estr ensure_str bind need_str guarded].
  assert (B : forall x, b2v x = bit true <-> x = true) by (intros []; cbv; intuition congruence).
  rewrite !B, !prefixb_spec, infixb_spec. repeat split; auto.
  - intros [r E]. exists (rev r). rewrite <- (rev_involutive a), E, rev_app_distr, rev_involutive. reflexivity.
  - intros [r ->]. exists (rev r). apply rev_app_distr.
Qed.

(** TRIM removes exactly the white space at both ends. *)
Theorem trim_spec : forall sp s,
  exists w1 r w2, s = w1 ++ r ++ w2 /\ sql1 (mysql_trim frepr sp) (VStr s) = VStr r /\
    Forall (fun c => sp c = true) w1 /\ Forall (fun c => sp c = true) w2 /\
    (forall c x, r = c :: x -> sp c = false) /\ (forall c x, r = x ++ [c] -> sp c = false).
Proof.
  intros sp s. destruct (strip_split sp s) as (w1 & w2 & E & H1 & H2).
  exists w1, (strip sp s), w2. split; [exact E|]. split; [reflexivity|]. split; [exact H1|]. split; [exact H2|].
  unfold strip. set (u := lstrip sp s). split.
  - intros c x K. destruct (lstrip_split sp (rev u)) as (w & A & _ & _).
    destruct (lstrip_split sp s) as (_ & _ & _ & B). fold u in B.
    assert (U : u = rev (lstrip sp (rev u)) ++ rev w).
    { rewrite <- (rev_involutive u) at 1. rewrite A at 1. apply rev_app_distr. }
    rewrite K in U. rewrite U in B. exact B.
  - intros c x K. destruct (lstrip_split sp (rev u)) as (w & _ & _ & B).
    assert (V : lstrip sp (rev u) = c :: rev x).
    { rewrite <- (rev_involutive (lstrip sp (rev u))), K, rev_app_distr. reflexivity. }
    rewrite V in B. exact B.
Qed.

(** CHAR_LENGTH counts characters. *)
Theorem char_length_counts : forall s, sql1 (mysql_char_length frepr) (VStr s) = VInt (Z.of_nat (length s)).
Proof. reflexivity. Qed.

(** LENGTH counts the bytes of the UTF-8 encoding and BIT_LENGTH its bits. *)
Theorem length_counts_bytes : forall s, Forall scalar s ->
  sql1 mysql_length (VStr s) = VInt (Z.of_nat (length (flat_map utf8 s))) /\
  sql1 mysql_bit_length (VStr s) = VInt (8 * Z.of_nat (length (flat_map utf8 s))).
Proof.
  intros s H.
  assert (E : utf8_length s = Some (length (flat_map utf8 s))).
  { induction s as [|c s IH]; [reflexivity|]. inversion H as [|? ? Hc Hs]; subst.
    cbn [utf8_length flat_map]. rewrite (IH Hs), app_length.
    assert (utf8_len c = Some (length (utf8 c))) as ->; [|reflexivity].
    unfold utf8_len, utf8, scalar in *.
    destruct (N.ltb_spec c 128); [reflexivity|]. destruct (N.ltb_spec c 2048); [reflexivity|].
    destruct (N.leb_spec 55296 c), (N.leb_spec c 57343); cbn [andb]; try lia;
      destruct (N.ltb_spec c 65536); reflexivity. }
  unfold sql1, mysql_length, mysql_bit_length. cbn -[utf8_length Z.mul Z.of_nat]. rewrite E. cbn -[Z.mul Z.of_nat].
  split; [reflexivity|]. f_equal. lia.
Qed.
End P.

Print Assumptions substring_positive. Print Assumptions substring_tail. Print Assumptions substring_null.
Print Assumptions left_right_correct. Print Assumptions insert_correct. Print Assumptions substring_negative_refuted.
Print Assumptions concat_null_iff. Print Assumptions concat_ws_correct. Print Assumptions concat_ws_null_refuted.
Print Assumptions reverse_involution. Print Assumptions repeat_copies.
Print Assumptions elt_inside. Print Assumptions elt_last_refuted. Print Assumptions field_first.
Print Assumptions find_in_set_first. Print Assumptions substring_index_positive. Print Assumptions cut_exists.
Print Assumptions substring_index_negative_refuted. Print Assumptions replace_all. Print Assumptions replace_self.
Print Assumptions strcmp_order. Print Assumptions affix_tests. Print Assumptions trim_spec. Print Assumptions char_length_counts.
Print Assumptions length_counts_bytes.

Example str_examples : forall frepr,
  sql3 (mysql_substring frepr) [VStr (t "Quadratically"); VInt 5; VInt 6] = VStr (t "ratica") /\
  sql2 (mysql_right frepr) (VStr (t "foobarbar")) (VInt 4) = VStr (t "rbar") /\
  sql4 (mysql_insert frepr) [VStr (t "Quadratic"); VInt 3; VInt 4; VStr (t "What")] = VStr (t "QuWhattic") /\
  sqln (mysql_concat frepr) [VStr (t "a"); VInt 12] = VStr (t "a12") /\
  sql2 (mysql_find_in_set frepr) (VStr (t "b")) (VStr (t "a,b,c,d")) = VInt 2 /\
  sql3 (mysql_substring_index frepr) [VStr (t "www.mysql.com"); VStr (t "."); VInt 2] = VStr (t "www.mysql") /\
  sql3 (mysql_replace frepr) [VStr (t "www"); VStr (t "w"); VStr (t "Ww")] = VStr (t "WwWwWw").
Proof. intro. repeat split; vm_compute; reflexivity. Qed.
Example length_example : Forall scalar [233; 120; 128512]%N /\ sql1 mysql_length (VStr [233; 120; 128512]%N) = VInt 7.
Proof. split; [repeat constructor; unfold scalar; lia | reflexivity]. Qed.

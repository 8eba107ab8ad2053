(** Lemmas for Winsel_Props. *)
From Coq Require Import SpecFloat Permutation Sorting.Sorted.
From Verif Require Import Base PyVal Utils_Model Calc_Model Expr_Syntax Expr_Model Expr_Spec Expr_Proofs Expr_Props Where_Model Where_Spec Where_Proofs Where_Props
  Having_Model Having_Spec Having_Proofs Having_Props Agg_Spec Reduce_Spec Group_Syntax Group_Model Group_Spec Group_Proofs Group_Props
  Inner_Syntax Inner_Model Inner_Spec Inner_Proofs Inner_Props Select_Model Select_Spec Select_Proofs Select_Props Whole_Syntax Cast_Syntax Cast_Where Cast_Spec Cast_Proofs Whole_Model Whole_Spec Whole_Proofs Whole_Props
  Winq_Syntax Winq_Model Winq_Spec Winq_Proofs Winsel_Syntax Winsel_Model Winsel_Spec.
Open Scope Z_scope.

Lemma assoc_parse_windows : forall l n, NoDup (map fst l) -> assoc n (parse_windows l) = assoc n l.
Proof. intros l n ND. rewrite (parse_windows_id _ ND). reflexivity. Qed.

Lemma key_columns_in : forall k n, In n (key_columns k) -> exists e, k = KeyExp e /\ mentions n e.
Proof. intros [q m|e] n I; [destruct I|]. exists e. split; [reflexivity|]. apply (operand_columns_in n e I). Qed.
Lemma call_columns_in : forall windows c n, In n (call_columns windows c) -> call_uses windows c n.
Proof.
  intros windows c n I. unfold call_columns in I. apply in_app_iff in I. destruct I as [I|I].
  - left. destruct (match w_name c with Some m => assoc m windows | None => Some (w_inline c) end) as [w|] eqn:E; [|destruct I].
    apply in_app_iff in I. destruct I as [I|I]; apply in_flat_map in I as (k & Ik & I).
    + apply key_columns_in in I as (e & -> & M). exists w, (KeyExp e), e. split; [|split; [apply in_app_iff; left; exact Ik|split; [reflexivity|exact M]]].
      unfold window_of. destruct (w_name c); exact E.
    + apply key_columns_in in I as (e & E' & M). exists w, (fst k), e. split; [|split; [apply in_app_iff; right; apply in_map; exact Ik|split; [exact E'|exact M]]].
      unfold window_of. destruct (w_name c); exact E.
  - right. destruct (w_fun c) as [a|f d args] eqn:F.
    + left. destruct (a_arg a) as [e|] eqn:A; [|destruct I]. exists a, e. split; [reflexivity|]. split; [exact A|]. apply columns_mentions. exact I.
    + right. apply in_flat_map in I as (e & Ie & I). exists f, d, args, e. split; [reflexivity|]. split; [exact Ie|]. apply columns_mentions. exact I.
Qed.
Lemma item_columns_in : forall windows i n, In n (item_columns windows i) -> item_uses windows i n.
Proof.
  intros windows i n I. destruct i as [v|m|e|c|e holes]; cbn [item_columns] in I.
  - destruct I.
  - destruct I as [I|[]]. right. exact I.
  - right. apply columns_mentions. exact I.
  - left. exists c. split; [left; reflexivity|]. apply call_columns_in. exact I.
  - apply in_app_iff in I. destruct I as [I|I].
    + left. apply in_flat_map in I as (h & Ih & I). exists (snd h). split; [cbn [wcalls]; apply in_map; exact Ih|]. apply call_columns_in. exact I.
    + right. apply filter_In in I as [I N1]. split; [apply columns_mentions; exact I|]. intros J. apply negb_true_iff in N1.
      assert (existsb (text_eqb n) (map fst holes) = true) by (apply existsb_exists; exists n; split; [exact J|apply text_eqb_refl]). congruence.
Qed.
Lemma window_names_in : forall items n, In n (window_names items) <-> exists i, In (n, i) items /\ is_windowed i = true.
Proof.
  intros items n. unfold window_names. rewrite in_map_iff. split.
  - intros ([m i] & <- & I). apply filter_In in I. exists i. exact I.
  - intros (i & I & H). exists (n, i). split; [reflexivity|]. apply filter_In. split; assumption.
Qed.
(** The names in config["schema"] are those of the direct items, and of the hidden columns. *)
Lemma cols_direct : forall fr id ext q l n i, In (n, i) l -> direct i -> In n (map fst (cols_of fr id ext q l)).
Proof.
  intros fr id ext q l n i I D. apply in_map_iff. exists (n, col_of fr id ext q i). split; [reflexivity|]. unfold cols_of. apply in_flat_map. exists (n, i). split; [exact I|].
  destruct i; try (left; reflexivity). destruct D.
Qed.

Lemma windows_no_limit : forall (q : select row output) k, compile_select row output q = Ok k -> has_windows _ _ q = true -> t_limit k = 0.
Proof.
  intros q k H A. unfold compile_select in H. destruct (compile_order row output q) as [op|]; [|discriminate]. cbn [bind] in H.
  destruct (compile_limit row output q (snd op)) as [p l] eqn:L. destruct (select_kind row output q); [|discriminate]. injection H as <-. cbn [t_limit].
  unfold compile_limit in L. rewrite A in L. rewrite !orb_true_r in L. cbn [orb] in L. destruct (_ || _); congruence.
Qed.
Lemma combine_snd : forall A B (l : list A) (m : list B), length l = length m -> map snd (combine l m) = m.
Proof. intros A B l. induction l as [|x l IH]; intros [|y m] E; try discriminate E; [reflexivity|]. cbn [combine map snd]. rewrite IH by (injection E; auto). reflexivity. Qed.
Lemma combine_fst : forall A B (l : list A) (m : list B), length l = length m -> map fst (combine l m) = l.
Proof. intros A B l. induction l as [|x l IH]; intros [|y m] E; try discriminate E; [reflexivity|]. cbn [combine map fst]. rewrite IH by (injection E; auto). reflexivity. Qed.
Lemma Forall2_len : forall A B (R : A -> B -> Prop) l m, Forall2 R l m -> length l = length m.
Proof. intros A B R l m F. induction F; cbn [length]; congruence. Qed.
(** The pair of a row and its result. *)
Lemma pair_shown : forall (P : irow -> output -> Prop) rows outs x, Forall2 P (numbered rows) outs -> In x (combine rows outs) -> exists i, P (i, fst x) (snd x).
Proof.
  intros P rows outs x. unfold numbered. generalize 0%nat. revert outs. induction rows as [|r rows IH]; intros outs k F I; [destruct I|]. cbn [length seq combine] in F.
  inversion F as [|a b l m Pa F']; subst. cbn [combine] in I. destruct I as [<-|I]; [exists k; exact Pa|]. exact (IH m (S k) F' I).
Qed.
Lemma shown_field : forall (P : witem -> val -> Prop) items o n i, NoDup (map fst items) -> In (n, i) items ->
  Forall2 (fun ai nv => fst nv = fst ai /\ P (snd ai) (snd nv)) items o -> P i (column o n).
Proof.
  intros P items o n i ND I F. unfold column. induction F as [|[m x] [m' v] items o [E H] F IH]; [destruct I|]. cbn [fst snd map] in *. subst m'. cbn [assoc].
  inversion ND as [|? ? N1 N2]; subst. destruct I as [I|I].
  - injection I as -> ->. rewrite text_eqb_refl. exact H.
  - destruct (text_eqb n m) eqn:E; [|exact (IH N2 I)]. apply text_eqb_spec in E. subst m. exfalso. apply N1. apply (in_map fst) in I. exact I.
Qed.
Lemma sorted_map : forall A B (f : A -> B) (R : B -> B -> Prop) l, StronglySorted R (map f l) -> StronglySorted (fun x y => R (f x) (f y)) l.
Proof.
  intros A B f R l. induction l as [|x l IH]; intros S; [constructor|]. cbn [map] in S. apply StronglySorted_inv in S as [S F]. constructor; [apply IH; exact S|].
  apply Forall_forall. intros y I. rewrite Forall_forall in F. apply F. apply in_map. exact I.
Qed.
Lemma sorted_weaken_in : forall A (R S : A -> A -> Prop) l, (forall x y, In x l -> In y l -> R x y -> S x y) -> StronglySorted R l -> StronglySorted S l.
Proof.
  intros A R S l. induction l as [|x l IH]; intros H P; [constructor|]. apply StronglySorted_inv in P as [P F]. constructor.
  - apply IH; [|exact P]. intros a b I J. apply H; right; assumption.
  - apply Forall_forall. intros y I. rewrite Forall_forall in F. apply H; [left; reflexivity|right; exact I|apply F; exact I].
Qed.
Lemma lex_le_ext_at : forall A B K (leK : K -> K -> bool) (l : list (text * bool)) (f : text -> A -> K) (g : text -> B -> K) x y x' y',
  (forall n d, In (n, d) l -> f n x = g n x' /\ f n y = g n y') ->
  lex_le leK (map (fun nd => (f (fst nd), snd nd)) l) x y = lex_le leK (map (fun nd => (g (fst nd), snd nd)) l) x' y'.
Proof.
  intros A B K leK l f g x y x' y' H. induction l as [|[n d] l IH]; [reflexivity|]. cbn [map fst snd lex_le].
  rewrite IH by (intros m b I; apply (H m b); right; exact I). destruct (H n d (or_introl eq_refl)) as [-> ->]. reflexivity.
Qed.
Lemma filter_snd : forall A B (f : B -> bool) (l : list (A * B)), filter f (map snd l) = map snd (filter (fun p => f (snd p)) l).
Proof. intros A B f l. induction l as [|x l IH]; [reflexivity|]. cbn [map filter]. destruct (f (snd x)); cbn [map]; rewrite IH; reflexivity. Qed.
(** A sort of the result needs every name in the schema. *)
Lemma order_in_schema : forall (q : select row output) names o ks, compile_order row output q = Ok (o, [PSort ks]) -> s_schema row output q = Some names ->
  forall tb n d, In (OCol tb n d) (s_order _ _ q) -> In n names.
Proof.
  intros q names o ks OC Es tb n d In_. unfold compile_order in OC. destruct (order_keys row output q (s_order row output q)) as [kk|] eqn:Ek; [|discriminate OC]. cbn [bind] in OC. cbv zeta in OC.
  destruct (_ <? _)%nat; [|discriminate OC]. rewrite Es in OC. destruct (forallb (fun k : text * bool => memb (fst k) names) (map fst kk)) eqn:Fa; [|discriminate OC]. clear OC.
  revert kk Ek Fa. induction (s_order row output q) as [|it l IH]; intros kk Ek Fa; [destruct In_|]. cbn [order_keys] in Ek.
  destruct (order_key row output q it) as [k1|] eqn:E1; [|discriminate Ek]. cbn [bind] in Ek.
  destruct (order_keys row output q l) as [k2|]; [|discriminate Ek]. cbn [bind] in Ek. injection Ek as <-. cbn [map forallb] in Fa. apply andb_prop in Fa as [F1 F2].
  destruct In_ as [->|I]; [|exact (IH I k2 eq_refl F2)]. cbn [order_key] in E1. injection E1 as <-. cbn [fst] in F1. apply memb_In. exact F1.
Qed.

(** Statements meeting the hypotheses of C249 and C250, and what LIMIT does without HAVING. *)
From Coq Require Import SpecFloat Permutation Sorting.Sorted.
From Verif Require Import Base PyVal Utils_Model Calc_Model Calc_Proofs Expr_Syntax Expr_Model Expr_Spec Expr_Proofs Expr_Props
  Having_Model Having_Spec Having_Proofs Having_Props Agg_Spec Reduce_Spec Group_Syntax Group_Model Group_Spec Group_Proofs Group_Props
  Inner_Syntax Inner_Model Inner_Spec Inner_Proofs Inner_Props Whole_Syntax Cast_Syntax Whole_Model Whole_Spec Whole_Proofs
  Whole_Props Whole_Cases Collapse_Model Collapse_Spec Collapse_Props Collapse_Cases Select_Model Select_Spec Select_Proofs Select_Props
  Joins_Syntax Joins_Spec Joins_Model Joins_Proofs Joins_Rewrites Joins_Accept Joins_Props
  Joinsel_Syntax Joinsel_Spec Joinsel_Model Joinsel_Proofs Joinsel_Props Joinsel_Cases Joingrp_Syntax Joingrp_Spec Joingrp_Model Joingrp_Proofs Joingrp_Props Joingrp_Cases Joingrp_Accept Joingrp_Comma
  Joincol_Model Joincol_Spec Joincol_Proofs Joincol_Props.
Open Scope Z_scope.

Definition run_j (distinct aliased : bool) (d : db) (g : jgroup) :=
  run_joincol icmp fr0 id0 with_add no_lib None first last_row (fun _ _ => VNone) nm0 (fun _ => Err OtherError) (fun _ _ => false) leq0 d 10 distinct aliased g.
(** SELECT a.id AS id, b.x AS v FROM a LEFT JOIN b ON b.id = a.id WHERE a.x < 9 GROUP BY a.id, b.x HAVING v > 0 ORDER BY v DESC, id LIMIT 2 OFFSET 1; the same with INNER JOIN, with
    FROM a, b WHERE b.id = a.id AND a.x < 9, and with DISTINCT in place of GROUP BY. *)
Definition rest3 (k : list group_item) : statement := mkstatement [(id_, ECol (t "a.id")); (t "v", ECol (t "b.x"))] None k
  (Some (EBin (t "gt") (ECol (t "v")) (EConst (VInt 0)))) [(t "v", true); (id_, false)] (Some 2) (Some 1).
Definition keys3 : list group_item := [KeyCol true (t "a.id"); KeyCol true (t "b.x")].
Definition q_left := Query [ta] [Join tb SLeft KNone [eq_ab]] cond1.
Definition q_inner := Query [ta] [Join tb SNone KInner [eq_ab]] cond1.
Definition q_comma := Query [ta; tb] [] (eq_ab :: cond1).
Definition out2 (i v : Z) : list (text * val) := [(id_, VInt i); (t "v", VInt v)].

Lemma left_from : joined_from ta [tb] q_left.
Proof. apply (F_left ta q_left); [apply one_ab|intros j [<-|[]]; split; reflexivity]. Qed.
Lemma inner_from : joined_from ta [tb] q_inner.
Proof.
  apply (F_inner ta q_inner).
  - split; [reflexivity|]. split; [exact (proj1 (proj2 (one_ab [])))|]. intros j [<-|[]]; (split; [repeat constructor; intros []|]). intros a [<-|[]]; cbn; discriminate.
  - discriminate.
  - intros j a [<-|[]] [<-|[]]; cbn; auto.
  - intros j [<-|[]]. repeat split.
Qed.
Lemma comma_from : joined_from ta [tb] q_comma.
Proof. apply F_comma. exact comma_grouped_ab. Qed.
Definition is_q (q : Joins_Syntax.query) : Prop := q = q_left \/ q = q_inner \/ q = q_comma.
Lemma any_from : forall q, is_q q -> joined_from ta [tb] q.
Proof. intros q [->|[->| ->]]; [exact left_from|exact inner_from|exact comma_from]. Qed.
Lemma any_upright : forall q, is_q q -> forall a, In a (qwhere q) -> upright a.
Proof. intros q [->|[->| ->]] a I; cbn [q_left q_inner q_comma qwhere cond1 In] in I; repeat (destruct I as [<-|I]; [exact Logic.I|]); destruct I. Qed.
Lemma rest3_over : forall q k, collapsing_over (JGroup q (rest3 k)).
Proof.
  intros q k. unfold collapsing_over. cbn [g_rest rest3 st_where st_items st_having st_limit map fst snd]. split; [reflexivity|]. split; [discriminate|].
  split; [apply NoDup_cons; [intros [E|[]]; discriminate E|apply NoDup_cons; [intros []|apply NoDup_nil]]|].
  split; [|split; [|split; [|split]]].
  - apply Forall_cons; [|apply Forall_cons; [|apply Forall_nil]]; cbn [snd]; (split; [constructor|]); (split; [|discriminate]); intros (x & a & P & H); apply no_parts_col in P; subst; discriminate H.
  - intros e E. injection E as <-. split; [apply HC_cmp; [reflexivity|constructor|constructor]|]. intros n M. apply columns_mentions in M. cbn in M. destruct M as [<-|[]]. right. left. reflexivity.
  - intros n E. injection E as <-. lia.
  - right. discriminate.
  - intros n I. cbn [In] in I. repeat (destruct I as [<-|I]; [reflexivity|]). destruct I.
Qed.
Lemma rest3_unused : forall q k, is_q q -> (forall e, ~ In (KeyExp e) k) -> ~ used_first ta (JGroup q (rest3 k)) (t "v").
Proof.
  intros q k Iq Nk [(m & U & F)|(c & C & F)]; cbn [g_rest g_from] in *.
  - destruct U as [(n & e & [I|[I|[]]] & M)|[(e & E & M)|[(e & x & E & O & N1 & M)|(e & I & _)]]].
    + injection I as <- <-. apply columns_mentions in M. destruct M as [<-|[]]. destruct F as [F _]. discriminate F.
    + injection I as <- <-. apply columns_mentions in M. destruct M as [<-|[]]. destruct F as [F _]. discriminate F.
    + discriminate E.
    + injection E as <-. inversion O as [| | |k0 a b [->| ->]| | |]; subst; apply columns_mentions in M; [destruct M as [<-|[]]; apply N1; reflexivity|destruct M].
    + exact (Nk e I).
  - destruct F as [F _]. assert (H : cname c = id_ \/ cname c = x_); [|rewrite F in H; destruct H; discriminate].
    clear F. destruct Iq as [->|[->| ->]]; destruct C as [(a & Ia & Ic)|(j & a & Ij & Ia & Ic)]; cbn [q_left q_inner q_comma qwhere qjoins cond1 In] in *;
      repeat match goal with H : _ = _ \/ _ |- _ => destruct H as [<-|H] | H : False |- _ => destruct H | H : In _ _ |- _ => progress cbn in H end; first [left; reflexivity|right; reflexivity].
Qed.
Example rest3_grouped : forall q, is_q q -> bare_group_over ta (JGroup q (rest3 keys3)).
Proof.
  intros q Iq. split; [apply rest3_over|]. split; [discriminate|]. split; [repeat constructor|]. cbn [g_rest rest3 st_order st_items st_group]. apply Forall_cons; [|apply Forall_cons; [|apply Forall_nil]]; cbn [fst].
  - eexists. split; [right; left; reflexivity|]. right. apply rest3_unused; [exact Iq|]. intros e [I|[I|[]]]; discriminate I.
  - eexists. split; [left; reflexivity|]. left. exists (t "a.id"), true. split; [reflexivity|]. split; [split; [reflexivity|right; reflexivity]|]. left. reflexivity.
Qed.
Example rest3_distinct : forall q, is_q q -> distinct_over ta (JGroup q (rest3 [])).
Proof.
  intros q Iq. split; [apply rest3_over|]. split; [reflexivity|]. cbn [g_rest rest3 st_order st_items]. apply Forall_cons; [|apply Forall_cons; [|apply Forall_nil]]; cbn [fst].
  - eexists. split; [right; left; reflexivity|]. right. apply rest3_unused; [exact Iq|]. intros e [].
  - eexists. split; [left; reflexivity|]. left. exists (t "a.id"). split; [reflexivity|]. split; [reflexivity|right; reflexivity].
Qed.
Lemma rest3_reads : forall k x, In x [tb] -> read_by (rest3 k) x.
Proof. intros k x [<-|[]]. exists (t "b.x"). split; [reflexivity|]. left. exists (t "v"), (ECol (t "b.x")). split; [right; left; reflexivity|]. apply columns_mentions. left. reflexivity. Qed.
Lemma some_eq : forall (a b : text), Some a = Some b -> a = b.
Proof. intros a b E. congruence. Qed.
Lemma rest3_known : forall q k, is_q q -> k = keys3 \/ k = [] -> reads_only ta [tb] (JGroup q (rest3 k)).
Proof.
  intros q k Iq Hk. split; cbn [g_rest g_from].
  - intros tb0 (m & E & [(n & e & Ie & M)|(i & Ik & M)]).
    + destruct Ie as [Ie|[Ie|[]]]; injection Ie as <- <-; apply columns_mentions in M; destruct M as [<-|[]]; vm_compute in E; apply some_eq in E; [left; symmetry; exact E|right; left; exact E].
    + destruct Hk as [->| ->]; [|destruct Ik]. destruct Ik as [<-|[<-|[]]]; cbn [column_of_key] in M; subst m; vm_compute in E; apply some_eq in E; [left; symmetry; exact E|right; left; exact E].
  - intros a c tb0 Ia Ic E. destruct Iq as [->|[->| ->]]; cbn [q_left q_inner q_comma qwhere cond1 In] in Ia;
      repeat match goal with H : _ = _ \/ _ |- _ => destruct H as [<-|H] | H : False |- _ => destruct H | H : In _ _ |- _ => progress cbn in H end;
      cbn [ctab] in E; apply some_eq in E; first [left; symmetry; exact E | right; left; exact E].
Qed.
Lemma rest3_keys : forall q, is_q q ->
  proper_keys num_text fn0 equal_keys (bare_key num_text fn0 (rest3 keys3)) (rest3 keys3) (joined icmp ta fours q) /\
  proper_keys num_text fn0 equal_keys (item_values num_text fn0 (rest3 [])) (rest3 []) (joined icmp ta fours q).
Proof.
  intros q Iq. destruct Iq as [->|[->| ->]]; split; intros r I _; vm_compute in I; (repeat (destruct I as [<-|I]; [vm_compute; reflexivity|])); destruct I.
Qed.
Example joined_group_applies : forall q, is_q q -> exists l, run_j false true fours (JGroup q (rest3 keys3)) = Some (Ok l) /\
  collapsed_result num_text fn0 leq0 equal_keys (bare_key num_text fn0 (rest3 keys3)) (rest3 keys3) (joined icmp ta fours q) l.
Proof.
  intros q Iq. apply (joined_bare_group icmp fr0 id0 with_add no_lib num_text None first last_row (fun _ _ => VNone) nm0 (fun _ => Err OtherError) (fun _ _ => false) leq0 fours ta
    icmp_null icmp_sym eq_refl leq0_total leq0_equal first_in last_row_in 10 true (JGroup q (rest3 keys3)) [tb]).
  - apply any_from. exact Iq.
  - apply rest3_reads.
  - apply rest3_known; [exact Iq|left; reflexivity].
  - apply any_upright. exact Iq.
  - apply rest3_grouped. exact Iq.
  - exact (proj1 (rest3_keys q Iq)).
Qed.
Example joined_distinct_applies : forall q, is_q q -> exists l, run_j true true fours (JGroup q (rest3 [])) = Some (Ok l) /\
  collapsed_result num_text fn0 leq0 equal_keys (item_values num_text fn0 (rest3 [])) (rest3 []) (joined icmp ta fours q) l /\
  ForallOrdPairs (fun x y => equal_keys (map snd x) (map snd y) = false) l.
Proof.
  intros q Iq. apply (joined_distinct icmp fr0 id0 with_add no_lib num_text None first last_row (fun _ _ => VNone) nm0 (fun _ => Err OtherError) (fun _ _ => false) leq0 fours ta
    icmp_null icmp_sym eq_refl leq0_total leq0_equal first_in last_row_in 10 true (JGroup q (rest3 [])) [tb]).
  - apply any_from. exact Iq.
  - apply rest3_reads.
  - apply rest3_known; [exact Iq|right; reflexivity].
  - apply any_upright. exact Iq.
  - apply rest3_distinct. exact Iq.
  - exact (proj2 (rest3_keys q Iq)).
Qed.
Example joined_group_runs : run_j false true fours (JGroup q_left (rest3 keys3)) = Some (Ok [out2 2 20; out2 1 10]) /\
  run_j false true fours (JGroup q_comma (rest3 keys3)) = Some (Ok [out2 2 20; out2 1 10]) /\ run_j true true fours (JGroup q_inner (rest3 [])) = Some (Ok [out2 2 20; out2 1 10]).
Proof. vm_compute. repeat split. Qed.

(** C251.  SELECT DISTINCT a.id AS id, b.x AS v FROM a LEFT JOIN b ON b.id = a.id LIMIT 2: the limit is taken from the rows of a, before they are joined and collapsed. *)
Definition rest4 : statement := mkstatement [(id_, ECol (t "a.id")); (t "v", ECol (t "b.x"))] None [] None [] (Some 2) None.
Definition q_all := Query [ta] [Join tb SLeft KNone [eq_ab]] [].
Theorem joined_distinct_limit_refuted : exists d l, run_j true true d (JGroup q_all rest4) = Some (Ok l) /\ length l = 3%nat /\
  ~ collapsed_result num_text fn0 leq0 equal_keys (item_values num_text fn0 rest4) rest4 (joined icmp ta d q_all) l.
Proof.
  exists (db3 [r2 1 5; r2 2 6] [r2 1 20; r2 1 30; r2 2 10] []), [out2 1 20; out2 1 30; out2 2 10]. split; [vm_compute; reflexivity|]. split; [reflexivity|].
  intros (rows & grows & sorted & _ & _ & _ & _ & _ & E). apply (f_equal (@length _)) in E. cbn [st_limit st_offset rest4] in E. unfold Whole_Spec.paged in E. rewrite firstn_length in E.
  cbn [length] in E. lia.
Qed.
Print Assumptions joined_distinct_limit_refuted.

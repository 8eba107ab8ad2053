(** C238-C240: cases of SELECT with aggregates over joined tables. *)
From Coq Require Import SpecFloat Permutation Sorting.Sorted.
From Verif Require Import Base PyVal Utils_Model Calc_Model Calc_Proofs Expr_Syntax Expr_Model Expr_Spec Expr_Proofs Expr_Props
  Having_Model Having_Spec Having_Proofs Having_Props Agg_Spec Reduce_Spec Group_Syntax Group_Model Group_Spec Group_Proofs Group_Props
  Inner_Syntax Inner_Model Inner_Spec Inner_Proofs Inner_Props Whole_Syntax Cast_Syntax Whole_Model Whole_Spec Whole_Proofs
  Whole_Props Whole_Cases Select_Model Select_Spec Select_Proofs Select_Props Joins_Syntax Joins_Spec Joins_Model Joins_Proofs Joins_Accept Joins_Props
  Joinsel_Syntax Joinsel_Spec Joinsel_Model Joinsel_Proofs Joinsel_Props Joinsel_Cases Joingrp_Syntax Joingrp_Spec Joingrp_Model Joingrp_Proofs Joingrp_Props.
Open Scope Z_scope.

(** A SELECT that reads a table which is neither in FROM nor joined is refused, not run without it. *)
Section Refused.
Variable cmpv : cmp -> val -> val -> bool.
Variable frepr : spec_float -> text.
Variable ident : val -> val -> bool.
Variable ext : text -> option (list val -> val).
Variable lib : text -> list val -> val.
Variable str_of : val -> text.
Variable pick : list Group_Model.row -> Group_Model.row.
Variable nested : text -> Group_Model.row -> val.
Variable raw : list (text * state) -> val.
Variable state_name : path -> text.
Variable other : expr -> res hcol.
Variable rematch : text -> val -> bool.
Variable leK : val -> val -> bool.
Variable d : db.
Variable p : text.

Lemma unknown_tables : forall js need tb, In tb need -> tb <> p -> ~ In tb (map jtab js) -> known_tables p js need = false.
Proof.
  intros js need tb I Np Nj. apply Bool.not_true_iff_false. unfold known_tables. intros F. rewrite forallb_forall in F. specialize (F tb I).
  apply Bool.orb_prop in F. destruct F as [F|F]; [apply text_eqb_spec in F; contradiction|apply memb_In in F; contradiction].
Qed.
(** C240 *)
Theorem unknown_table_grouped : forall fuel aliased g tb, one_table p (g_from g) ->
  (forall j, In j (qjoins (g_from g)) -> jside j = SLeft /\ jkind j = KNone) ->
  read_by (g_rest g) tb -> tb <> p -> ~ In tb (map jtab (qjoins (g_from g))) ->
  run_joingrp cmpv frepr ident ext lib str_of pick nested raw state_name other rematch leK d fuel aliased g = Some (Err CompileError).
Proof.
  intros fuel aliased g tb (Hf & Hsc & Hpl) Left (m & Em & M) Np Nj.
  assert (Ho : optimize fuel (g_from g) = Some (g_from g)).
  { unfold optimize. rewrite (single_from _ _ Hf). rewrite no_right by (intros j Hj E; destruct (Left j Hj); congruence).
    rewrite no_inner by (intros j Hj E; destruct (Left j Hj); congruence). now destruct (qjoins (g_from g)). }
  unfold run_joingrp. rewrite Ho. f_equal. unfold run_group_compiled. rewrite Hf.
  destruct (@run_joins_accepts cmpv d p (qjoins (g_from g)) []) as (x & ->).
  { intros j Hj. unfold join_type_ok. destruct (Left j Hj) as [-> ->]. reflexivity. }
  { exact (scoped_qualified _ _ Hsc). }
  { intros j Hj. exact (proj1 (Hpl j Hj)). }
  cbn [bind]. cbv zeta. rewrite (unknown_tables _ _ tb); [reflexivity| |exact Np|exact Nj].
  eapply tables_have; [|exact Em]. apply in_or_app. left. apply in_map. unfold items_read. apply in_or_app.
  destruct M as [(n & e & Ie & M)|(kk & Ig & M)]; [left|right]; apply in_flat_map.
  - exists (n, e). split; [exact Ie|]. apply columns_mentions. exact M.
  - exists kk. split; [exact Ig|]. destruct kk as [b m'|e]; cbn [column_of_key key_reads] in *; [left; symmetry; exact M|apply columns_mentions; exact M].
Qed.
Theorem unknown_table_select : forall fuel aliased st tb n o c, one_table p (j_query st) ->
  (forall j, In j (qjoins (j_query st)) -> jside j = SLeft /\ jkind j = KNone) ->
  In (n, o) (j_items st) -> In c (ocols o) -> ctab c = Some tb -> tb <> p -> ~ In tb (map jtab (qjoins (j_query st))) ->
  run_joinsel cmpv leK d fuel aliased st = Some (Err CompileError).
Proof.
  intros fuel aliased st tb n o c (Hf & Hsc & Hpl) Left I Ic Ec Np Nj.
  assert (Ho : optimize fuel (j_query st) = Some (j_query st)).
  { unfold optimize. rewrite (single_from _ _ Hf). rewrite no_right by (intros j Hj E; destruct (Left j Hj); congruence).
    rewrite no_inner by (intros j Hj E; destruct (Left j Hj); congruence). now destruct (qjoins (j_query st)). }
  unfold run_joinsel. rewrite Ho. f_equal. unfold run_compiled. rewrite Hf.
  destruct (@run_joins_accepts cmpv d p (qjoins (j_query st)) []) as (x & ->).
  { intros j Hj. unfold join_type_ok. destruct (Left j Hj) as [-> ->]. reflexivity. }
  { exact (scoped_qualified _ _ Hsc). }
  { intros j Hj. exact (proj1 (Hpl j Hj)). }
  cbn [bind]. cbv zeta. rewrite (unknown_tables _ _ tb); [reflexivity| |exact Np|exact Nj].
  eapply tables_have; [|exact Ec]. apply in_or_app. left. apply in_flat_map. exists (n, o). split; [exact I|exact Ic].
Qed.
(** The tables that are read are in FROM or joined. *)
Definition reads_known_tables (g : jgroup) : Prop :=
  (forall tb, read_by (g_rest g) tb -> tb = p \/ In tb (map jtab (qjoins (g_from g)))) /\
  (forall a c tb, In a (qwhere (g_from g)) -> In c (acols a) -> ctab c = Some tb -> tb = p \/ In tb (map jtab (qjoins (g_from g)))).
(** C238: such a SELECT compiles and runs. *)
Theorem left_grouped_accepted : forall tt fuel aliased g, eq_symmetric cmpv -> ext (t "neg") = None -> total_preorder leK ->
  (forall a b, pyeq a b = true -> leK a b = true /\ leK b a = true) -> (forall rs, rs <> [] -> In (pick rs) rs) -> (forall p q, state_name p = state_name q -> p = q) ->
  null_rejecting cmpv -> one_table p (g_from g) ->
  (forall j, In j (qjoins (g_from g)) -> jside j = SLeft /\ jkind j = KNone) ->
  (forall j, In j (qjoins (g_from g)) -> read_by (g_rest g) (jtab j)) -> reads_known_tables g -> (forall a, In a (qwhere (g_from g)) -> upright a) ->
  grouped_over p g -> (forall m alias e, In (alias, e) (st_items (g_rest g)) -> ~ mentions (state_name m) e) ->
  summable_groups tt (sql_fn frepr ident ext lib) equal_keys (g_rest g) (joined cmpv p d (g_from g)) ->
  exists l, run_joingrp cmpv frepr ident ext lib str_of pick nested raw state_name other rematch leK d fuel aliased g = Some (Ok l).
Proof.
  intros tt fuel aliased g SY NN TK EQ HP INJ NR One Left Sel (K1 & K2) Up GO FR SG. pose proof One as (Hf & Hsc & Hpl).
  assert (Ho : optimize fuel (g_from g) = Some (g_from g)).
  { unfold optimize. rewrite (single_from _ _ Hf). rewrite no_right by (intros j Hj E; destruct (Left j Hj); congruence).
    rewrite no_inner by (intros j Hj E; destruct (Left j Hj); congruence). now destruct (qjoins (g_from g)). }
  destruct (@run_joins_accepts cmpv d p (qjoins (g_from g)) []) as (x & Rx).
  { intros j Hj. unfold join_type_ok. destruct (Left j Hj) as [-> ->]. reflexivity. }
  { exact (scoped_qualified _ _ Hsc). }
  { intros j Hj. exact (proj1 (Hpl j Hj)). }
  destruct (grouped_runs cmpv frepr ident ext lib tt str_of pick nested raw state_name other rematch leK d p SY NN TK EQ HP INJ aliased g (g_from g) x GO FR Hf) as (es & Ex & G); try assumption.
  - apply (scoped_neq _ [p]); [now left|exact Hsc].
  - auto.
  - apply forallb_forall. intros tb I. apply tables_in in I. destruct I as (c & I & E).
    assert (J : tb = p \/ In tb (map jtab (qjoins (g_from g)))).
    { apply in_app_or in I. destruct I as [I|I].
      - apply in_map_iff in I. destruct I as (m & <- & I). apply K1. exists m. split; [exact E|]. unfold items_read in I. apply in_app_or in I. destruct I as [I|I]; apply in_flat_map in I.
        + destruct I as ([n e] & Ie & I). left. exists n, e. split; [exact Ie|]. apply columns_mentions. exact I.
        + destruct I as (k & Ik & I). right. exists k. split; [exact Ik|]. destruct k as [b m'|e]; cbn [key_reads column_of_key] in *; [destruct I as [->|[]]; reflexivity|apply columns_mentions; exact I].
      - apply in_flat_map in I. destruct I as (a & Ia & I). apply filter_In in Ia. exact (K2 a c tb (proj1 Ia) I E). }
    apply orb_true_iff. destruct J as [->|J]; [left; apply text_eqb_refl|right; apply memb_In; exact J].
  - pose proof (left_joins_correct cmpv d fuel p (g_from g) NR SY One Left) as LC. unfold Joins_Model.run_query in LC. rewrite Ho, Ex in LC.
    injection LC as E. rewrite E in G. destruct (G SG) as (l & R & _). exists l. unfold run_joingrp. rewrite Ho, R. reflexivity.
Qed.
End Refused.
Print Assumptions left_grouped_accepted.
Print Assumptions unknown_table_grouped.
Print Assumptions unknown_table_select.

(** *** Examples and counterexamples *)
Definition run_g (aliased : bool) (d : db) (g : jgroup) :=
  run_joingrp icmp fr0 id0 with_add no_lib (fun _ => []) first (fun _ _ => VNone) (fun _ => VNone) nm0 (fun _ => Err OtherError) (fun _ _ => false) leq0 d 10 aliased g.
(** SELECT a.id AS id, MAX(b.x) AS m, COUNT( * ) AS n FROM a LEFT JOIN b ON b.id = a.id WHERE a.x < 9 GROUP BY a.id HAVING n > 0 ORDER BY m DESC, id LIMIT 2 OFFSET 1 *)
Definition max_bx : expr := EFun (t "max") [ECol (t "b.x")].
Definition rest1 : statement := mkstatement [(id_, ECol (t "a.id")); (t "m", max_bx); (t "n", EFun (t "count") [])] None [KeyCol true (t "a.id")]
  (Some (EBin (t "gt") (ECol (t "n")) (EConst (VInt 0)))) [(t "m", true); (id_, false)] (Some 2) (Some 1).
Definition cond1 := [ACmp CLt (cc ta x_) (kk 9)].
Definition g_left : jgroup := JGroup (Query [ta] [Join tb SLeft KNone [eq_ab]] cond1) rest1.
Definition g_inner : jgroup := JGroup (Query [ta] [Join tb SNone KInner [eq_ab]] cond1) rest1.
Definition g_comma : jgroup := JGroup (Query [ta; tb] [] (eq_ab :: cond1)) rest1.
Definition fours := db3 [r2 2 5; r2 1 6; r2 3 7; r2 4 8; r2 1 9; r2 1 1] [r2 1 10; r2 2 20; r2 1 30] [].
Definition out3 (i m n : val) : list (text * val) := [(id_, i); (t "m", m); (t "n", n)].
Example left_runs : run_g true fours g_left = Some (Ok [out3 (VInt 2) (VInt 20) (VInt 1); out3 (VInt 3) VNone (VInt 1)]).
Proof. vm_compute. reflexivity. Qed.
Example inner_grouped_runs : run_g true fours g_inner = Some (Ok [out3 (VInt 2) (VInt 20) (VInt 1)]).
Proof. vm_compute. reflexivity. Qed.
Example comma_grouped_runs : run_g true fours g_comma = Some (Ok [out3 (VInt 2) (VInt 20) (VInt 1)]).
Proof. vm_compute. reflexivity. Qed.

Lemma one_part : forall x n c, part x (EFun n [ECol c]) -> x = EFun n [ECol c] \/ x = ECol c.
Proof.
  intros x n c P. apply part_inv in P. destruct P as [->|(i & y & K & P)]; [left; reflexivity|]. cbn in K. destruct K as [K|[]]; injection K as <- <-.
  right. apply no_parts_col. exact P.
Qed.
Lemma no_part : forall x n, part x (EFun n []) -> x = EFun n [].
Proof. intros x n P. apply part_inv in P. destruct P as [->|(i & y & K & P)]; [reflexivity|]. destruct K. Qed.
Lemma rest1_plain : plain_written (mkwritten (st_items rest1) (st_group rest1)).
Proof.
  unfold plain_written, rest1. cbn [w_items w_group st_items st_group map fst snd]. split; [|split; [|split]].
  - apply NoDup_cons; [intros [E|[E|[]]]; discriminate E|]. apply NoDup_cons; [intros [E|[]]; discriminate E|]. apply NoDup_cons; [intros []|apply NoDup_nil].
  - apply Forall_cons; [exact Logic.I|apply Forall_nil].
  - apply Forall_cons; [|apply Forall_cons; [|apply Forall_cons; [|apply Forall_nil]]]; cbn [snd fst].
    + split; [constructor|]. split; [intros x a y z b P A; apply no_parts_col in P; subst; discriminate A|]. split; [discriminate|]. split.
      * intros x a P A. apply no_parts_col in P. subst. discriminate A.
      * intros (x & a & P & A). apply no_parts_col in P. subst. discriminate A.
    + split; [apply X_fun; repeat constructor|]. split; [|split; [discriminate|split]].
      * intros x a y z b P A Y Q Bz. destruct (one_part _ _ _ P) as [->| ->]; [|discriminate A]. cbn in A. injection A as <-. cbn in Y. injection Y as <-. apply no_parts_col in Q. subst. discriminate Bz.
      * intros x a P A. destruct (one_part _ _ _ P) as [->| ->]; [|discriminate A]. cbn in A. injection A as <-. cbn. split; discriminate.
      * intros _ Z. discriminate Z.
    + split; [apply X_fun; constructor|]. split; [|split; [discriminate|split]].
      * intros x a y z b P A Y. apply no_part in P. subst. cbn in A. injection A as <-. discriminate Y.
      * intros x a P A. apply no_part in P. subst. cbn in A. injection A as <-. cbn. split; [discriminate|reflexivity].
      * intros _ Z. discriminate Z.
  - apply Exists_cons_tl. apply Exists_cons_hd. exists max_bx. eexists. split; [constructor|reflexivity].
Qed.
Lemma rest1_over : forall q, grouped_over ta (JGroup q rest1).
Proof.
  intros q. unfold grouped_over. cbn [g_rest]. split; [reflexivity|]. split; [exact rest1_plain|]. split; [|split; [|split]].
  - intros e E. injection E as <-. split; [apply HC_cmp; [reflexivity|constructor|constructor]|]. intros n M. apply columns_mentions in M. cbn in M. destruct M as [<-|[]]. right. right. left. reflexivity.
  - intros n E. injection E as <-. lia.
  - intros n I. cbn [rest1 st_items map fst In] in I. repeat (destruct I as [<-|I]; [reflexivity|]). destruct I.
  - apply Forall_cons; [|apply Forall_cons; [|apply Forall_nil]]; cbn [fst].
    + eexists. split; [right; left; reflexivity|]. right. left. exists max_bx. eexists. split; [constructor|reflexivity].
    + eexists. split; [left; reflexivity|]. left. exists (t "a.id"), true. split; [reflexivity|]. split; [split; [reflexivity|right; reflexivity]|]. left. reflexivity.
Qed.
Lemma rest1_fresh : forall m alias e, In (alias, e) (st_items rest1) -> ~ mentions (nm0 m) e.
Proof.
  intros m alias e I M. apply columns_mentions in M. cbn [st_items rest1 In] in I.
  destruct I as [I|[I|[I|[]]]]; injection I as <- <-; vm_compute in M; repeat (destruct M as [M|M]; [discriminate M|]); destruct M.
Qed.
Lemma rest1_reads : read_by rest1 tb.
Proof. exists (t "b.x"). split; [reflexivity|]. left. exists (t "m"), max_bx. split; [right; left; reflexivity|]. apply columns_mentions. left. reflexivity. Qed.
Lemma rest1_summable : forall q, let rows := joined icmp ta fours q in
  (forall r, In r rows -> equal_keys (key_of num_text fn0 rest1 r) (key_of num_text fn0 rest1 r) = true) ->
  (forall r, In r rows -> r (t "b.x") = VNone \/ exists n, r (t "b.x") = VInt n) ->
  summable_groups num_text fn0 equal_keys rest1 rows.
Proof.
  intros q rows Keys Ints. unfold summable_groups. intros r Ir. apply filter_In in Ir. destruct Ir as [Ir _]. split; [exact (Keys r Ir)|].
  intros m e x a Ie P H. cbn [st_items rest1 In] in Ie. destruct Ie as [Ie|[Ie|[Ie|[]]]]; injection Ie as <- <-.
  - apply no_parts_col in P. subst. discriminate H.
  - destruct (one_part _ _ _ P) as [->| ->]; [|discriminate H]. cbn in H. injection H as <-. unfold summable, argument. cbn [a_fun a_distinct a_arg sem].
    set (rs := filter _ _). assert (I2 : forall y, In y rs -> y (t "b.x") = VNone \/ exists n, y (t "b.x") = VInt n).
    { intros y J. unfold rs in J. apply filter_In in J as [J _]. apply filter_In in J as [J _]. exact (Ints y J). }
    clearbody rs. clear - I2. intros x y Hx Hy. unfold nonnull in Hx, Hy. apply filter_In in Hx as [Hx Fx], Hy as [Hy Fy]. apply in_map_iff in Hx as (x' & Ex & Hx), Hy as (y' & Ey & Hy).
    change (x' (t "b.x") = x) in Ex. change (y' (t "b.x") = y) in Ey. destruct (I2 _ Hx) as [En|(n & En)]; [exfalso; rewrite En in Ex; subst x; discriminate Fx|]; destruct (I2 _ Hy) as [Em|(m & Em)]; [exfalso; rewrite Em in Ey; subst y; discriminate Fy|].
    rewrite <- Ex, <- Ey, En, Em. eexists. reflexivity.
  - apply no_part in P. subst. cbn in H. injection H as <-. exact Logic.I.
Qed.
Ltac each_row := let r := fresh in let I := fresh in intros r I; vm_compute in I; repeat (destruct I as [<-|I]; [first [vm_compute; reflexivity | left; vm_compute; reflexivity | right; eexists; vm_compute; reflexivity]|]); destruct I.
Notation result_of g l := (grouped_result num_text fn0 (fun _ => []) leq0 equal_keys (g_rest g) (joined icmp ta fours (g_from g)) l).
Lemma first_in : forall rs : list Group_Model.row, rs <> [] -> In (first rs) rs.
Proof. intros [|r rs] H; [destruct (H eq_refl)|left; reflexivity]. Qed.
Example left_grouped_applies : exists l, run_g true fours g_left = Some (Ok l) /\ result_of g_left l.
Proof.
  eexists. split; [vm_compute; reflexivity|].
  eapply (left_grouped icmp fr0 id0 with_add no_lib num_text (fun _ => []) first (fun _ _ => VNone) (fun _ => VNone) nm0 (fun _ => Err OtherError) (fun _ _ => false) leq0 fours ta
     icmp_null icmp_sym eq_refl leq0_total leq0_equal first_in nm0_injective 10 true g_left).
  - apply one_ab.
  - intros j [<-|[]]. split; reflexivity.
  - intros j [<-|[]]. exact rest1_reads.
  - intros a [<-|[]]. exact Logic.I.
  - apply rest1_over.
  - exact rest1_fresh.
  - apply rest1_summable; each_row.
  - vm_compute. reflexivity.
Qed.
Example left_reads_known : reads_known_tables ta g_left.
Proof.
  split.
  - intros tb0 (m & E & [(n & e & Ie & M)|(k & Ik & M)]); cbn [g_left g_rest rest1 st_items st_group In] in *.
    + destruct Ie as [Ie|[Ie|[Ie|[]]]]; injection Ie as <- <-; apply columns_mentions in M; cbn in M; [destruct M as [<-|[]]|destruct M as [<-|[]]|destruct M];
        vm_compute in E; [left|right; left]; apply (f_equal (fun o => match o with Some x => x | None => [] end)) in E; [symmetry|]; exact E.
    + destruct Ik as [<-|[]]. cbn [column_of_key] in M. subst m. left. vm_compute in E. apply (f_equal (fun o => match o with Some x => x | None => [] end)) in E. symmetry. exact E.
  - intros a c tb0 [<-|[]] I E. cbn in I. destruct I as [<-|[]]. cbn in E. left. apply (f_equal (fun o => match o with Some x => x | None => [] end)) in E. symmetry. exact E.
Qed.
Example inner_grouped_applies : exists l, run_g true fours g_inner = Some (Ok l) /\ result_of g_inner l.
Proof.
  eexists. split; [vm_compute; reflexivity|].
  eapply (inner_grouped icmp fr0 id0 with_add no_lib num_text (fun _ => []) first (fun _ _ => VNone) (fun _ => VNone) nm0 (fun _ => Err OtherError) (fun _ _ => false) leq0 fours ta
     icmp_null icmp_sym eq_refl leq0_total leq0_equal first_in nm0_injective 10 true g_inner).
  - split; [reflexivity|]. split; [exact (proj1 (proj2 (one_ab [])))|].
    intros j [<-|[]]; (split; [repeat constructor; intros []|]). intros a [<-|[]]; cbn; discriminate.
  - discriminate.
  - intros j a [<-|[]] [<-|[]]; cbn; auto.
  - intros j [<-|[]]. repeat split.
  - intros j [<-|[]]. exact rest1_reads.
  - intros a [<-|[]]. exact Logic.I.
  - apply rest1_over.
  - exact rest1_fresh.
  - apply rest1_summable; each_row.
  - vm_compute. reflexivity.
Qed.
Example comma_grouped_applies : exists l, run_g true fours g_comma = Some (Ok l) /\ result_of g_comma l.
Proof.
  eexists. split; [vm_compute; reflexivity|].
  eapply (comma_grouped icmp fr0 id0 with_add no_lib num_text (fun _ => []) first (fun _ _ => VNone) (fun _ => VNone) nm0 (fun _ => Err OtherError) (fun _ _ => false) leq0 fours ta
     icmp_null icmp_sym eq_refl leq0_total leq0_equal first_in nm0_injective 10 true g_comma [tb]).
  - reflexivity.
  - reflexivity.
  - discriminate.
  - cbn [g_comma g_from qwhere tied]. split; [intros [E|[]]; discriminate|]. split; [|exact Logic.I].
    exists CEq, (cc tb id_), (cc ta id_), (Col (Some tb) id_), (cc ta id_). split; [now left|]. split; [reflexivity|].
    split; [left; split; reflexivity|]. exists ta. split; [reflexivity|now left].
  - intros a [<-|[<-|[]]] c Ic; cbn in Ic; repeat (destruct Ic as [<-|Ic]; [discriminate|]); destruct Ic.
  - intros o l r cs f [E|[E|[]]] [E1|E1] c Ic; injection E as <- <- <-; try discriminate E1. injection E1 as <- _. destruct Ic.
  - intros x [<-|[]]. exact rest1_reads.
  - intros a [<-|[<-|[]]]; exact Logic.I.
  - apply rest1_over.
  - exact rest1_fresh.
  - apply rest1_summable; each_row.
  - vm_compute. reflexivity.
Qed.
(** A table c that is neither in FROM nor joined. *)
Example unknown_table_applies : run_g true fours (JGroup (Query [ta] [] []) (with_group [KeyCol true (t "c.x")] rest1)) = Some (Err CompileError).
Proof.
  apply (unknown_table_grouped _ _ _ _ _ _ _ _ _ _ _ _ _ _ ta _ _ _ tc); cbn [g_from qjoins map].
  - split; [reflexivity|]. split; [exact Logic.I|intros j []].
  - intros j [].
  - exists (t "c.x"). split; [reflexivity|]. right. exists (KeyCol true (t "c.x")). split; [left; reflexivity|reflexivity].
  - discriminate.
  - intros [].
Qed.

(** C241: SELECT b.x AS x, MAX(a.x) AS m FROM a LEFT JOIN b ON b.id = a.id GROUP BY b.x ORDER BY x, the tables without aliases: since a.x is read, x is
    taken for a column of a, the rows of a are sorted by it, and the groups are not sorted at all. *)
Definition rest2 : statement := mkstatement [(x_, ECol (t "b.x")); (t "m", EFun (t "max") [ECol (t "a.x")])] None [KeyCol true (t "b.x")] None [(x_, false)] None None.
Definition g_order : jgroup := JGroup (Query [ta] [Join tb SLeft KNone [eq_ab]] []) rest2.
Definition out_x (i m : Z) : list (text * val) := [(x_, VInt i); (t "m", VInt m)].
Theorem order_grouped_name_refuted : exists d l, run_g false d g_order = Some (Ok l) /\ l = [out_x 20 5; out_x 10 6] /\
  ~ grouped_result num_text fn0 (fun _ => []) leq0 equal_keys (g_rest g_order) (joined icmp ta d (g_from g_order)) l.
Proof.
  exists (db3 [r2 1 5; r2 2 6] [r2 1 20; r2 2 10] []), [out_x 20 5; out_x 10 6]. split; [vm_compute; reflexivity|]. split; [reflexivity|].
  intros (rows & grows & sorted & _ & _ & _ & S & _ & E). change (Whole_Spec.paged None None sorted) with sorted in E. change (Whole_Spec.paged _ _ sorted) with sorted in E. subst sorted.
  apply StronglySorted_inv in S. destruct S as [_ F]. inversion F as [|? ? Le _]; subst. discriminate Le.
Qed.
(** With aliases the same statement is right. *)
Example order_grouped_aliased : run_g true (db3 [r2 1 5; r2 2 6] [r2 1 20; r2 2 10] []) g_order = Some (Ok [out_x 10 6; out_x 20 5]).
Proof. vm_compute. reflexivity. Qed.

(** A statement meeting the hypotheses of C242, and C243. *)
From Coq Require Import SpecFloat Permutation Sorting.Sorted.
From Verif Require Import Base PyVal Str_Model Str_Proofs Utils_Model Calc_Model Expr_Syntax Expr_Model Expr_Spec Expr_Proofs Expr_Props Where_Spec Having_Model Having_Spec Having_Proofs Reduce_Spec
  Group_Syntax Group_Model Group_Spec Group_Proofs Group_Props Inner_Syntax Inner_Model Inner_Spec Inner_Proofs Inner_Props Select_Model Select_Spec Select_Props
  Whole_Syntax Cast_Syntax Whole_Model Whole_Spec Whole_Proofs Whole_Props Whole_Cases Collapse_Model Collapse_Spec Collapse_Props Collapse_Cases Alias_Model Alias_Spec Alias_Proofs Alias_Props Union_Model With_Props
  Winq_Syntax Winq_Model Winq_Spec Winq_Props Winsel_Syntax Winsel_Model Winsel_Spec Winsel_Props Full_Syntax Full_Model Full_Proofs Full_Props
  Joins_Syntax Joins_Spec Joins_Model Joins_Props Joinsel_Syntax Joinsel_Spec Joinsel_Model Joinsel_Props Joinsel_Cases Joingrp_Syntax Joingrp_Spec Joingrp_Model Joingrp_Props Joingrp_Cases Joingrp_Accept Joingrp_Comma
  Joinsel_Unread Joinsel_Unread_Cases Joincol_Model Joincol_Spec Joincol_Props Joincol_Cases
  Compose_Syntax Compose_Spec Compose_Model Compose_Proofs Compose_Windows Compose_Props.
Open Scope Z_scope.
Notation mt := memory_table.
Notation fnc := (sql_fn fr0 id0 with_add no_lib).

(** WITH c AS (SELECT id AS id, x AS x FROM q)
    SELECT * FROM (SELECT i AS id, y AS m, COUNT( * ) OVER () AS n
                   FROM (SELECT a.id AS i, b.x AS y FROM p AS a LEFT JOIN c AS b ON b.id = a.id WHERE a.x < 7 ORDER BY a.id DESC) s
                   UNION ALL
                   SELECT a.id AS id, MAX(b.x) AS m, COUNT( * ) AS n FROM p AS a LEFT JOIN q AS b ON b.id = a.id WHERE a.x < 9 GROUP BY a.id
                   HAVING ... ORDER BY m, id LIMIT ...) w *)
Definition plain_items (items : list (text * expr)) : statement := mkstatement items None [] None [] None None.
Definition cte_c : Compose_Syntax.query := Select (One false false (plain_items [(id_, ECol id_); (x_, ECol x_)])) [Table (mt (t "q")) None].
Definition q_join : Compose_Syntax.query := Select (Joined st_desc) [Table (mt (t "p")) (Some ta); Table (mt (t "c")) (Some tb)].
Definition count_all : wcall := mkwcall (WAgg (mkagg FCount false None)) None (mkwindow [] [] None).
Definition ws_count : wstatement := mkwstatement (mkwquery [(id_, WCol ij); (t "m", WCol yj); (t "n", WWin count_all)] []) None None [] None None.
Definition q_window : Compose_Syntax.query := Select (Windowed ws_count) [Sub q_join (t "s")].
Definition q_group : Compose_Syntax.query := Select (Grouped g_left) [Table (mt (t "p")) (Some ta); Table (mt (t "q")) (Some tb)].
Definition q_all : Compose_Syntax.query := Select (One false true (plain_items [])) [Sub (UnionAll q_window q_group) (t "w")].
Definition ctes_c : list (text * Compose_Syntax.query) := [(t "c", cte_c)].
Definition tables_c (n : text) : list (list (text * val)) := if text_eqb n (mt (t "p")) then fours ta else if text_eqb n (mt (t "q")) then fours tb else [].
Definition select_c : core -> list shape -> list (list output) -> res (list output) :=
  run_core fr0 id0 with_add no_lib (fun _ => false) (fun _ => []) None first last_row (fun _ _ => VNone) (fun _ => VNone) nm0 (fun _ => Err OtherError) (fun _ _ => false) leq0 (fun _ _ _ => VNone) icmp 10.
Definition o3 (i m n : val) : list (text * val) := [(id_, i); (t "m", m); (t "n", n)].
Example composed_runs : Compose_Model.execute select_c temps (t "id") ctes_c q_all tables_c = Ok
  [o3 (VInt 2) (VInt 20) (VInt 5); o3 (VInt 1) (VInt 10) (VInt 5); o3 (VInt 1) (VInt 30) (VInt 5); o3 (VInt 1) (VInt 10) (VInt 5); o3 (VInt 1) (VInt 30) (VInt 5);
   o3 (VInt 2) (VInt 20) (VInt 1); o3 (VInt 3) VNone (VInt 1)].
Proof. vm_compute. reflexivity. Qed.

Example composed_new : new_tables temps ctes_c q_all tables_c.
Proof.
  split; [exact temps_inj|]. split; [|split].
  - intros j. unfold tables_c. rewrite !(proj2 (text_eqb_neq _ _)); [reflexivity| |]; intros E; symmetry in E; revert E; apply temps_other; discriminate.
  - intros j n q [->|[<-|[]]] R; cbn in R; repeat (destruct R as [R|R]); try contradiction; subst; apply temps_other; discriminate.
  - intros j name [<-|[]] E. destruct (temps_head j) as [x Q]. rewrite Q in E. discriminate.
Qed.
Example composed_no_prefix : no_prefix temps (t "id") ctes_c.
Proof.
  intros name q x [E|[]]. injection E as <- <-. split; [|split].
  - intros n [->|[]] E; discriminate E.
  - intros j E. unfold memory_table in E. rewrite <- !app_assoc in E. apply app_inv_head in E. destruct (temps_head j) as [r Q]. rewrite Q in E. discriminate E.
  - intros E. discriminate E.
Qed.
Notation acceptable_c := (core_acceptable fr0 id0 with_add no_lib num_text (fun _ => false) (fun n => exists p, n = nm0 p) leq0 icmp).
Notation answers_c := (core_answers num_text fnc (fun _ => []) leq0 equal_keys (fun _ _ _ => VNone) icmp).
Lemma plain_items_ok : forall items, NoDup (map fst items) -> Forall (fun ne => exact (snd ne) /\ ~ uses_aggregate (snd ne) /\ forall v, snd ne <> ENeg (EConst v)) items ->
  plain_statement num_text fnc (plain_items items).
Proof.
  intros items ND F. unfold plain_statement, plain_items. cbn [st_items st_group st_where st_having st_limit st_order]. split; [exact ND|]. split; [exact F|]. split; [reflexivity|].
  split; [intros e E; discriminate E|]. split; [intros e E; discriminate E|]. split; [intros n E; discriminate E|]. left. apply Forall_nil.
Qed.
Lemma count_statement : windowed_statement num_text fnc (fun _ => false) ws_count.
Proof.
  split; [|split; [exists (t "n"); eexists; split; [right; right; left; reflexivity|discriminate]|]].
  - split; [apply NoDup_nil|]. split; [change (NoDup [id_; t "m"; t "n"]); nodup_text|]. cbn [ws_count ws_query wq_items].
    apply Forall_cons; [split; [apply Forall_nil|exact I]|]. apply Forall_cons; [split; [apply Forall_nil|exact I]|]. apply Forall_cons; [|apply Forall_nil].
    split; [|exact I]. cbn [snd wcalls]. apply Forall_cons; [|apply Forall_nil]. split; [|split; [intros H; destruct (H eq_refl)|]].
    + exists (mkwindow [] [] None). split; [reflexivity|]. split; [reflexivity|]. split; apply Forall_nil.
    + cbn [w_fun count_all]. split; [discriminate|]. split; [intros _; split; reflexivity|]. intros e E. discriminate E.
  - split; [intros e E; discriminate E|]. split; [intros e E; discriminate E|]. split; [intros n E; discriminate E|]. left. apply Forall_nil.
Qed.
Lemma count_fits : forall l, fits fr0 id0 with_add no_lib num_text leq0 ws_count l.
Proof.
  intros l rs _. split.
  - intros c alias i k w Ic It J W. destruct It as [E|[E|[E|[]]]]; injection E as <- <-; (destruct J as [<-|[]] || destruct J). injection W as <-. split; [reflexivity|].
    intros a Ea. injection Ea as <-. split; [intros _; exact I|]. intros bef aft H. destruct (H eq_refl).
  - intros alias i k w a x y It J W Fa O. destruct It as [E|[E|[E|[]]]]; injection E as <- <-; (destruct J as [<-|[]] || destruct J). injection W as <-. destruct (O eq_refl).
Qed.
Lemma desc_joined : plain_joined ta true st_desc.
Proof.
  split; [discriminate|]. split; [apply one_ab|]. split; [change (NoDup [ij; yj]); nodup_text|]. split; [apply base_selected|]. split; [|split; [|split; [|split]]].
  - split; [intros n o c tb0 [E|[E|[]]] Ic Ec; injection E as <- <-; destruct Ic as [<-|[]]; injection Ec as <-; [left|right; left]; reflexivity|].
    intros a c tb0 [<-|[]] Ic Ec. destruct Ic as [<-|[]]. injection Ec as <-. left. reflexivity.
  - left. intros c b [E|[]]. injection E as <- _. reflexivity.
  - intros a [<-|[]]. exact I.
  - apply base_named.
  - intros n E. discriminate E.
Qed.
Lemma group_ok : plain_grouped fr0 id0 with_add no_lib num_text (fun n => exists p, n = nm0 p) icmp ta (source_rows [Shape ta (Some ta) None; Shape tb (Some tb) None] [fours ta; fours tb]) g_left.
Proof.
  split; [apply one_ab|]. split; [intros j [<-|[]]; exact rest1_reads|]. split; [exact left_reads_known|]. split; [intros a [<-|[]]; exact I|]. split; [apply rest1_over|].
  split; [intros n al e (m & ->) J; exact (rest1_fresh m al e J)|].
  assert (E : joined icmp ta (source_rows [Shape ta (Some ta) None; Shape tb (Some tb) None] [fours ta; fours tb]) (g_from g_left) = joined icmp ta fours (g_from g_left)).
  { vm_compute. reflexivity. }
  rewrite E. cbn [g_left g_rest]. apply rest1_summable; each_row.
Qed.
(** FROM p, q WHERE ...: with and without aggregates. *)
Example comma_acceptable : forall ls, acceptable_c (Joined st_comma) [Shape ta (Some ta) None; Shape tb (Some tb) None] ls.
Proof.
  intros ls. apply (A_comma _ _ _ _ _ _ _ _ _ st_comma (Shape ta (Some ta) None) [Shape tb (Some tb) None]). cbn [sh_name map is_aliased sh_alias].
  split; [discriminate|]. split; [exact comma_ab|]. split; [change (NoDup [ij; x_]); nodup_text|].
  split; [intros x [<-|[]]; exists x_, (cc tb x_); split; [right; left; reflexivity|]; exists (Col (Some tb) x_); split; [left; reflexivity|reflexivity]|].
  split; [|split; [|split; [|split]]].
  - split; [intros n o c tb0 [E|[E|[]]] Ic Ec; injection E as <- <-; destruct Ic as [<-|[]]; injection Ec as <-; [left|right; left]; reflexivity|].
    intros a c tb0 [<-|[]] Ic Ec. destruct Ic as [<-|[<-|[]]]; injection Ec as <-; [right; left|left]; reflexivity.
  - right. intros c desc [E|[]]. injection E as <- _. right. left. reflexivity.
  - intros a [<-|[]]. exact I.
  - split; [discriminate|]. split; [intros c b [E|[]]; injection E as <- _; discriminate|].
    intros c b o [E|[]] J. injection E as <- _. left. cbn [st_comma j_items In] in J. destruct J as [E|[E|[]]]; [discriminate E|]. assert (Eo : snd (item x_ tb x_) = o) by (rewrite E; reflexivity). subst o. reflexivity.
  - intros n E. injection E as <-. lia.
Qed.
Example comma_group_acceptable : acceptable_c (Grouped g_comma) [Shape ta (Some ta) None; Shape tb (Some tb) None] [fours ta; fours tb].
Proof.
  apply (A_comma_grouped _ _ _ _ _ _ _ _ _ g_comma (Shape ta (Some ta) None) [Shape tb (Some tb) None]). cbn [sh_name map].
  split; [exact comma_grouped_ab|]. split; [intros x [<-|[]]; exact rest1_reads|]. split; [exact comma_grouped_reads|]. split; [intros a [<-|[<-|[]]]; exact I|]. split; [apply rest1_over|].
  split; [intros n al e (m & ->) J; exact (rest1_fresh m al e J)|].
  assert (E : joined icmp ta (source_rows [Shape ta (Some ta) None; Shape tb (Some tb) None] [fours ta; fours tb]) (g_from g_comma) = joined icmp ta fours (g_from g_comma)).
  { vm_compute. reflexivity. }
  rewrite E. cbn [g_comma g_rest]. apply rest1_summable; each_row.
Qed.
(** DISTINCT, and GROUP BY without aggregates, over LEFT JOIN, INNER JOIN and FROM p, q. *)
Example collapsed_acceptable : forall (distinct : bool) q, is_q q ->
  acceptable_c (Collapsed distinct (JGroup q (rest3 (if distinct then [] else keys3)))) [Shape ta (Some ta) None; Shape tb (Some tb) None] [fours ta; fours tb].
Proof.
  intros distinct q Iq. apply (A_collapsed _ _ _ _ _ _ _ _ _ distinct _ (Shape ta (Some ta) None) [Shape tb (Some tb) None]). cbn [sh_name map].
  split; [exact (any_from q Iq)|]. split; [intros x I; exact (rest3_reads _ x I)|].
  split; [apply rest3_known; [exact Iq|destruct distinct; [right|left]; reflexivity]|]. split; [exact (any_upright q Iq)|].
  split; [destruct distinct; [exact (rest3_distinct q Iq)|exact (rest3_grouped q Iq)]|].
  assert (E : joined icmp ta (source_rows [Shape ta (Some ta) None; Shape tb (Some tb) None] [fours ta; fours tb]) q = joined icmp ta fours q) by (destruct Iq as [->|[->| ->]]; vm_compute; reflexivity).
  cbn [g_from g_rest]. rewrite E. destruct distinct; [exact (proj2 (rest3_keys q Iq))|exact (proj1 (rest3_keys q Iq))].
Qed.
(** SELECT id, v FROM (SELECT DISTINCT a.id AS id, b.x AS v FROM p a LEFT JOIN q b ... UNION ALL SELECT ... GROUP BY a.id, b.x ...) s *)
Definition q_collapsed (distinct : bool) : Compose_Syntax.query :=
  Select (Collapsed distinct (JGroup q_left (rest3 (if distinct then [] else keys3)))) [Table (mt (t "p")) (Some ta); Table (mt (t "q")) (Some tb)].
Example collapsed_runs_composed : exists l, Compose_Model.execute select_c temps (t "id") [] (Select (One false true (plain_items [])) [Sub (UnionAll (q_collapsed true) (q_collapsed false)) (t "s")]) tables_c = Ok l /\
  l <> [] /\ Forall (fun o => map fst o = [id_; t "v"]) l.
Proof. eexists. split; [vm_compute; reflexivity|]. split; [discriminate|]. repeat constructor. Qed.
(** A LEFT JOIN which nothing reads. *)
Example unread_acceptable : acceptable_c (Joined st_unread) [Shape ta (Some ta) None; Shape tb (Some tb) None] [three ta; three tb].
Proof.
  apply (A_unread _ _ _ _ _ _ _ _ _ [] [Join tb SLeft KNone [eq_ab]] [ACmp CLt (cc ta x_) (kk 7)] [item ij ta id_] desc_id (Some 2) None (Shape ta (Some ta) None) [Shape tb (Some tb) None]); [reflexivity|].
  cbn [sh_name is_aliased sh_alias]. unfold plain_unread. cbn [app map].
  split; [discriminate|]. split; [apply one_ab|]. split; [change (NoDup [ij]); nodup_text|]. split; [intros j [<-|[]]; split; reflexivity|].
  split.
  { intros j [<-|[]]. split; [|split].
    + intros n o c [E|[]] I. injection E as <- <-. destruct I as [<-|[]]. discriminate.
    + intros a c [<-|[]] I. destruct I as [<-|[]]. discriminate.
    + intros c b [E|[]]. injection E as <- _. discriminate. }
  split.
  { intros j e [<-|[]]. unfold matches, alltrue. cbn [jtab jon].
    change (source_rows [Shape ta (Some ta) None; Shape tb (Some tb) None] [three ta; three tb] tb) with [r2 1 10; r2 2 20]. cbn [map filter forallb].
    unfold atrue, eq_ab. cbn [oval cc]. unfold cval. cbn [ctab assoc]. change (text_eqb tb tb) with true. change (text_eqb ta tb) with false. cbv iota.
    destruct (match assoc ta e with Some (Some r) => rget r (cname (Col (Some ta) id_)) | _ => VNone end) as [| |z| | | | |]; cbn; try lia.
    destruct z as [|[k|k|]|k]; cbn; try lia; destruct k; cbn; lia. }
  split; [intros x []|].
  split.
  { split; [intros n o c x [E|[]] I Ec; injection E as <- <-; destruct I as [<-|[]]; cbn [ctab] in Ec; left; congruence|].
    intros a c x [<-|[]] I Ec. destruct I as [<-|[]]. cbn [ctab] in Ec. left. congruence. }
  split; [left; intros c b [E|[]]; injection E as <- _; reflexivity|].
  split; [intros a [<-|[]]; exact Logic.I|].
  split.
  { split; [discriminate|]. split; [intros c b [E|[]]; injection E as <- _; discriminate|]. intros c b o [E|[]] J. injection E as <- _. destruct J as [E|[]]. discriminate E. }
  split; [intros n E; injection E as <-; lia|].
  right. right. right. intros j e [].
Qed.
Ltac sources L := cbn [each] in L; repeat match type of L with _ /\ _ => destruct L as [? L] end; try contradiction.
Example composed_proper : with_proper answers_c acceptable_c tables_c ctes_c q_all.
Proof.
  cbn [with_proper ctes_c]. split.
  - (* c *) cbn [proper cte_c every]. split; [split; exact I|]. split; [intros []|]. intros ls L. destruct ls as [|l [|? ?]]; sources L.
    eapply (A_one _ _ _ _ _ _ _ _ _ false false _ _ _ l); [reflexivity|discriminate|]. apply P_plain. apply plain_items_ok; [change (NoDup [id_; x_]); nodup_text|].
    cbn [star_written with_items plain_items st_items app]. apply Forall_cons; [apply col_free|]. apply Forall_cons; [apply col_free|apply Forall_nil].
  - intros lc _. set (tb1 := define tables_c (t "c") lc).
    assert (Tp : tb1 (mt (t "p")) = fours ta) by reflexivity. assert (Tq : tb1 (mt (t "q")) = fours tb) by reflexivity. clearbody tb1.
    cbn [proper q_all every]. split; [|split].
    + split; [|exact I]. cbn [proper q_window q_group every]. split; [|split; [|split; [|split]]].
      * split; [|split; [intros []|]].
        -- split; [|exact I]. cbn [proper q_join every]. split; [split; [exact I|split; exact I]|]. split; [intros []|]. intros ls _.
           apply (A_left _ _ _ _ _ _ _ _ _ st_desc (Shape ta (Some ta) None) [Shape tb (Some tb) None]); [reflexivity|exact desc_joined|intros j [<-|[]]; split; reflexivity|left; reflexivity].
        -- intros ls L. destruct ls as [|l [|? ?]]; sources L.
           eapply (A_windowed_alias _ _ _ _ _ _ _ _ _ ws_count _ (t "s")); [reflexivity|discriminate|exact count_statement|apply Forall_nil|intros n E; discriminate E|apply count_fits].
      * split; [split; [exact I|split; exact I]|]. split; [intros []|]. intros ls L. destruct ls as [|l1 [|l2 [|? ?]]]; sources L. rename H into E1, H0 into E2.
        cbv beta iota in E1, E2. rewrite Tp in E1. rewrite Tq in E2. subst l1 l2.
        apply (A_left_grouped _ _ _ _ _ _ _ _ _ g_left (Shape ta (Some ta) None) [Shape tb (Some tb) None]); [reflexivity| |intros j [<-|[]]; split; reflexivity]. apply group_ok.
      * cbn [regular regular_core]. repeat (apply Forall_cons; [exact I|]). apply Forall_nil.
      * exact I.
      * reflexivity.
    + intros _. eexists. eexists. split; [reflexivity|]. cbn [regular q_window q_group regular_core]. split; [|exact I]. repeat (apply Forall_cons; [exact I|]). apply Forall_nil.
    + intros ls L. destruct ls as [|l [|? ?]]; sources L.
      eapply (A_one _ _ _ _ _ _ _ _ _ false true _ _ _ l); [reflexivity|intros _; eexists; eexists; split; reflexivity|].
      cbn [alias_of map shapes shape_by sh_alias]. apply Q_plain; [discriminate| |reflexivity| |apply Forall_nil].
      * split; [change (NoDup [id_; t "m"; t "n"]); nodup_text|]. apply Forall_cons; [apply col_free|]. apply Forall_cons; [apply col_free|]. apply Forall_cons; [apply col_free|apply Forall_nil].
      * split; [intros e E; discriminate E|]. split; [intros e E; discriminate E|intros n E; discriminate E].
Qed.

(** C243.  SELECT * FROM (SELECT a AS a, COUNT( * ) OVER () + 1 AS x FROM t) s: the subquery has the column x, the star does not show it, and shows a column which
    the subquery does not have. *)
Definition hole_c : text := t "__window_aggregate_value_1__".
Definition ws_expr : wstatement :=
  mkwstatement (mkwquery [(A, WCol A); (x_, WExpr (EBin (t "add") (ECol hole_c) (EConst (VInt 1))) [(hole_c, count_all)])] []) None None [] None None.
Definition q_expr : Compose_Syntax.query := Select (Windowed ws_expr) [Table (mt (t "t")) None].
Definition q_star : Compose_Syntax.query := Select (One false true (plain_items [])) [Sub q_expr (t "s")].
Definition q_union : Compose_Syntax.query := UnionAll q_expr q_expr.
Definition tables_t (n : text) : list (list (text * val)) := if text_eqb n (mt (t "t")) then [[(A, VInt 7)]; [(A, VInt 8)]] else [].
Theorem star_over_window_expression_refuted :
  Compose_Model.execute select_c temps (t "id") [] q_expr tables_t = Ok [[(A, VInt 7); (x_, VInt 3)]; [(A, VInt 8); (x_, VInt 3)]] /\
  Compose_Model.execute select_c temps (t "id") [] q_star tables_t = Ok [[(A, VInt 7); (hole_c, VNone)]; [(A, VInt 8); (hole_c, VNone)]] /\
  Compose_Model.execute select_c temps (t "id") [] q_union tables_t = Ok [[(A, VInt 7); (hole_c, VNone)]; [(A, VInt 8); (hole_c, VNone)]; [(A, VInt 7); (hole_c, VNone)]; [(A, VInt 8); (hole_c, VNone)]].
Proof. split; [|split]; vm_compute; reflexivity. Qed.
Print Assumptions star_over_window_expression_refuted.

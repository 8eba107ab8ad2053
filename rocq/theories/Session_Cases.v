(** A script meeting the hypotheses of C247, and C232: a name of WITH used by two statements. *)
From Coq Require Import SpecFloat Permutation Sorting.Sorted.
From Verif Require Import Base PyVal Str_Model Str_Proofs Utils_Model Calc_Model Expr_Syntax Expr_Model Expr_Spec Expr_Proofs Expr_Props Where_Spec Having_Model Having_Spec Having_Proofs Reduce_Spec
  Group_Syntax Group_Model Group_Spec Group_Proofs Group_Props Inner_Syntax Inner_Model Inner_Spec Inner_Proofs Inner_Props Select_Model Select_Spec Select_Props
  Whole_Syntax Cast_Syntax Whole_Model Whole_Spec Whole_Proofs Whole_Props Whole_Cases Collapse_Model Collapse_Spec Collapse_Props Collapse_Cases Alias_Model Alias_Spec Alias_Proofs Alias_Props Union_Model With_Props
  Winq_Syntax Winq_Model Winq_Spec Winq_Props Winsel_Syntax Winsel_Model Winsel_Spec Winsel_Props Full_Syntax Full_Model Full_Proofs Full_Props
  Joins_Syntax Joins_Spec Joins_Model Joins_Props Joinsel_Syntax Joinsel_Spec Joinsel_Model Joinsel_Props Joinsel_Cases Joingrp_Syntax Joingrp_Spec Joingrp_Model Joingrp_Props Joingrp_Cases Joingrp_Accept
  Compose_Syntax Compose_Spec Compose_Model Compose_Proofs Compose_Windows Compose_Props Compose_Cases
  Insert_Spec Script_Spec Script_Model Session_Syntax Session_Spec Session_Model Session_Proofs Session_Props.
Open Scope Z_scope.
Notation mt := memory_table.

(** INSERT INTO p (id, x) VALUES (1, 5), (2, 3), (4, 4);
    DELETE FROM p WHERE id = 4;
    INSERT INTO u WITH c AS (SELECT id AS id, x AS x FROM q)
      SELECT a.id AS i, b.x AS y FROM p AS a LEFT JOIN c AS b ON b.id = a.id WHERE a.x < 7 ORDER BY a.id DESC;
    SELECT i AS id, y AS m, COUNT( * ) OVER () AS n FROM u *)
Definition P_ : text := mt (t "p").
Definition U_ : text := mt (t "u").
Definition s_values : command := InsertRows P_ [id_; x_] [[VInt 1; VInt 5]; [VInt 2; VInt 3]; [VInt 4; VInt 4]].
Definition s_delete : command := DeleteFrom P_ (Some (EBin (t "eq") (ECol id_) (EConst (VInt 4)))).
Definition s_join : command := InsertQuery U_ ctes_c q_join.
Definition s_show : command := Show [] (Select (Windowed ws_count) [Table U_ None]).
Definition session1 : list command := [s_values; s_delete; s_join; s_show].
Definition start (n : text) : list (list (text * val)) := if text_eqb n (mt (t "q")) then fours tb else [].
Definition session0 (cs : list command) (tables : text -> list (list (text * val))) : res (list (list (list (text * val)))) :=
  do x <- run_session fr0 id0 with_add no_lib select_c (fun _ v => v) temps (t "id") cs 0 tables; Ok (fst x).
Example session1_runs : session0 session1 start = Ok [[o3 (VInt 2) (VInt 20) (VInt 3); o3 (VInt 1) (VInt 10) (VInt 3); o3 (VInt 1) (VInt 30) (VInt 3)]].
Proof. vm_compute. reflexivity. Qed.

Example session1_proper : session_proper num_text fnc answers_c acceptable_c start session1.
Proof.
  cbn [session_proper session1 s_values s_delete s_join s_show]. split; [|split; [|split]].
  - split; [intros n [<-|[<-|[]]] I'; cbn in I'; repeat (destruct I' as [I'|I']; [discriminate I'|]); destruct I'|]. split; [nodup_text|]. split; [discriminate|]. split; [discriminate|]. split.
    + intros tp [<-|[<-|[<-|[]]]]; cbn; lia.
    + intros i Hi. right. exists (t "int"). intros tp I'. right. left. split; [|reflexivity].
      destruct i as [|[|i]]; [| |cbn in Hi; lia]; destruct I' as [<-|[<-|[<-|[]]]]; eexists; reflexivity.
  - split.
    + intros e E. injection E as <-. apply compare_leaf. reflexivity.
    + intros e E. injection E as <-. apply T_leaf; [discriminate|discriminate|]. left. exists (t "eq"), id_, (EConst (VInt 4)). split; [reflexivity|]. split; [reflexivity|].
      split; [intros I'; cbn in I'; repeat (destruct I' as [I'|I']; [discriminate I'|]); destruct I'|]. intros m M. inversion M.
  - cbn [with_proper ctes_c]. split.
    + cbn [proper cte_c every]. split; [split; exact I|]. split; [intros []|]. intros ls L. destruct ls as [|l [|? ?]]; sources L.
      eapply (A_one _ _ _ _ _ _ _ _ _ false false _ _ _ l); [reflexivity|discriminate|]. apply P_plain. apply plain_items_ok; [change (NoDup [id_; x_]); nodup_text|].
      cbn [star_written with_items plain_items st_items app]. apply Forall_cons; [apply col_free|]. apply Forall_cons; [apply col_free|apply Forall_nil].
    + intros l _. cbn [proper q_join every]. split; [split; [exact I|split; exact I]|]. split; [intros []|]. intros ls _.
      apply (A_left _ _ _ _ _ _ _ _ _ st_desc (Shape ta (Some ta) None) [Shape tb (Some tb) None]); [reflexivity|exact desc_joined|intros j [<-|[]]; split; reflexivity|left; reflexivity].
  - intros out _. split; [|exact I]. cbn [with_proper proper every]. split; [split; exact I|]. split; [intros []|]. intros ls L. destruct ls as [|l [|? ?]]; sources L.
    apply (A_windowed _ _ _ _ _ _ _ _ _ ws_count); [reflexivity|exact count_statement|apply count_fits].
Qed.
Example session1_new : new_names temps session1 start.
Proof.
  split; [exact temps_inj|]. split; [intros j; unfold start; rewrite (proj2 (text_eqb_neq _ _)); [reflexivity|]; intros E; symmetry in E; revert E; apply temps_other; discriminate|].
  intros c j [<-|[<-|[<-|[<-|[]]]]].
  - split; [intros E; cbn [writes s_values] in E; symmetry in E; revert E; apply temps_other; discriminate|]. split; intros [].
  - split; [intros E; cbn [writes s_delete] in E; symmetry in E; revert E; apply temps_other; discriminate|]. split; intros [].
  - split; [intros E; cbn [writes s_join] in E; symmetry in E; revert E; apply temps_other; discriminate|]. split.
    + intros [[E|[E|[]]]|(name & q & [E|[]] & R)]; [symmetry in E; revert E; apply temps_other; discriminate|symmetry in E; revert E; apply temps_other; discriminate|].
      injection E as <- <-. destruct R as [R|[]]. symmetry in R. revert R. apply temps_other. discriminate.
    + intros [E|[]]. destruct (temps_head j) as [x Q]. rewrite Q in E. discriminate E.
  - split; [intros []|]. split; [|intros []]. intros [[E|[]]|(name & q & [] & _)]. symmetry in E. revert E. apply temps_other. discriminate.
Qed.
Example session1_separate : separate_names session1 start.
Proof.
  assert (One : forall i ci name, nth_error session1 i = Some ci -> In name (with_names ci) -> i = 2%nat /\ name = t "c").
  { intros i ci name Hi J. destruct i as [|[|[|[|[|i]]]]]; cbn in Hi; try discriminate Hi; injection Hi as <-; cbn in J; try destruct J as [J|[]]; try (destruct J; fail). split; [reflexivity|symmetry; exact J]. }
  split; [|split].
  - intros c [<-|[<-|[<-|[<-|[]]]]]; cbn; try apply NoDup_nil. apply NoDup_cons; [intros []|apply NoDup_nil].
  - intros i j ci cj name Hi Hj J. destruct (One i ci name Hi J) as [-> ->]. split.
    + destruct j as [|[|[|[|[|j]]]]]; cbn in Hj; try discriminate Hj; injection Hj as <-; cbn [writes s_values s_delete s_join s_show]; try (intros E; discriminate E); intros [].
    + intros Hne. split; [intros J'; destruct (One j cj _ Hj J') as [-> _]; destruct (Hne eq_refl)|].
      destruct j as [|[|[|[|[|j]]]]]; cbn in Hj; try discriminate Hj; injection Hj as <-; try (intros []; fail); [destruct (Hne eq_refl)|]. intros [[E|[]]|(name & q & [] & _)]; discriminate E.
  - intros c name [<-|[<-|[<-|[<-|[]]]]] J; cbn in J; try destruct J as [J|[]]; try (destruct J; fail). subst name. reflexivity.
Qed.
Example session1_no_prefix : forall c, In c session1 -> no_prefix temps (t "id") (with_part c).
Proof. intros c [<-|[<-|[<-|[<-|[]]]]]; try (intros ? ? ? []; fail). exact composed_no_prefix. Qed.

(** C232 is false, also for these queries, of WITH as it should be: the LEFT JOIN of s_join, shown twice, finds every row of c twice the second time. *)
Definition s_again : command := Show ctes_c q_join.
Definition p_one (n : text) : list (list (text * val)) :=
  if text_eqb n P_ then [[(id_, VInt 1); (x_, VInt 5)]] else if text_eqb n (mt (t "q")) then [[(id_, VInt 1); (x_, VInt 10)]] else [].
Definition iy : list (text * val) := [(ij, VInt 1); (yj, VInt 10)].
Theorem session_with_name_kept_refuted : session0 [s_again; s_again] p_one = Ok [[iy]; [iy; iy]].
Proof. vm_compute. reflexivity. Qed.
Print Assumptions session_with_name_kept_refuted.

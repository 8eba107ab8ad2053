(** Examples for C231, and C232: a name of WITH used by two statements. *)
From Coq Require Import SpecFloat.
From Verif Require Import Base PyVal Str_Model Expr_Syntax Expr_Model Expr_Spec Expr_Proofs Expr_Props Where_Spec Having_Model Having_Spec Group_Syntax Group_Model Group_Props Inner_Syntax Inner_Proofs Inner_Props Inner_Spec
  Select_Spec Whole_Syntax Whole_Model Whole_Spec Whole_Props Whole_Cases Cast_Syntax Cast_Spec Collapse_Cases Alias_Spec With_Props Insert_Spec Full_Syntax Full_Spec Full_Model Full_Proofs Full_Props Script_Syntax Script_Spec Script_Model Script_Proofs Script_Props.
Open Scope Z_scope.

(** INSERT INTO t (a, b) VALUES (1, 5), (2, 3), (4, 4);
    DELETE FROM t WHERE a = 4;
    INSERT INTO u WITH c AS (SELECT a AS a, b AS x FROM t WHERE a > 1) SELECT a AS a, x AS x FROM c;
    SELECT a AS a, a + b AS x FROM t UNION ALL SELECT a AS a, x AS x FROM u *)
Definition T_ : text := mt (t "t").
Definition U_ : text := mt (t "u").
Definition only (items : list (text * expr)) (w : option expr) (table : text) : query := Select false false (sel items w [] None) (Table table None).
Definition insert1 : command := InsertRows T_ [A; B] [[VInt 1; VInt 5]; [VInt 2; VInt 3]; [VInt 4; VInt 4]].
Definition delete1 : command := DeleteFrom T_ (Some (EBin (t "eq") (ECol A) (EConst (VInt 4)))).
Definition cte1 : list (text * query) := [(t "c", only [(A, ECol A); (x_, ECol B)] where1 T_)].
Definition insert2 : command := InsertQuery U_ cte1 (only [(A, ECol A); (x_, ECol x_)] None (mt (t "c"))).
Definition show1 : command := Show [] (UnionAll (only [(A, ECol A); ab_x] None T_) (only [(A, ECol A); (x_, ECol x_)] None U_)).
Definition script1 : list command := [insert1; delete1; insert2; show1].
Definition empty : text -> list (list (text * val)) := fun _ => [].
Definition same_filt : text -> val -> val := fun _ v => v.
Definition script0 (cs : list command) (tables : text -> list (list (text * val))) : res (list (list output) * (text -> list output)) :=
  run_script fr0 id0 with_add no_lib (fun _ => []) None first last_row (fun _ _ => VNone) (fun _ => VNone) nm0 (fun _ => Err OtherError) (fun _ _ => false) leq0 same_filt temps (t "id") cs 0 tables.
Definition shown_by (r : res (list (list output) * (text -> list output))) : res (list (list output)) := do x <- r; Ok (fst x).
Definition ax (x y : Z) : output := [(A, VInt x); (x_, VInt y)].
Example script1_runs : shown_by (script0 script1 empty) = Ok [[ax 1 6; ax 2 5; ax 2 3]].
Proof. vm_compute. reflexivity. Qed.

Lemma only_proper : forall tb items w table, NoDup (map fst items) -> w = None \/ w = where1 ->
  Forall (fun ne => exact (snd ne) /\ ~ uses_aggregate (snd ne) /\ forall v, snd ne <> ENeg (EConst v)) items ->
  proper num_text fn0 (fun _ => []) leq0 equal_keys (fun n => exists p, n = nm0 p) tb (only items w table).
Proof.
  intros tb items w table ND W F. cbn [proper only]. split; [reflexivity|]. intros l _. apply P_plain. apply plain_sel; [exact ND|exact W|exact F].
Qed.
Example script1_proper : script_proper num_text fn0 (fun _ => []) leq0 equal_keys (fun n => exists p, n = nm0 p) empty script1.
Proof.
  assert (AX : forall e, e = ECol B \/ e = ECol x_ -> Forall (fun ne => exact (snd ne) /\ ~ uses_aggregate (snd ne) /\ forall v, snd ne <> ENeg (EConst v)) [(A, ECol A); (x_, e)]).
  { intros e [->| ->]; (apply Forall_cons; [apply col_free|]; apply Forall_cons; [apply col_free|apply Forall_nil]). }
  cbn [script_proper script1 insert1 delete1 insert2 show1]. split; [|split; [|split]].
  - split; [intros n [<-|[<-|[]]] [H|[]]; discriminate H|]. split; [apply NoDup_cons; [intros [E|[]]; discriminate E|apply NoDup_cons; [intros []|apply NoDup_nil]]|]. split; [discriminate|]. split; [discriminate|]. split.
    + intros tp [<-|[<-|[<-|[]]]]; cbn; lia.
    + intros i Hi. right. exists (t "int"). intros tp I. right. left. split; [|reflexivity].
      destruct i as [|[|i]]; [| |cbn in Hi; lia]; destruct I as [<-|[<-|[<-|[]]]]; eexists; reflexivity.
  - split.
    + intros e E. injection E as <-. apply compare_leaf. reflexivity.
    + intros e E. injection E as <-. apply T_leaf; [discriminate|discriminate|]. left. exists (t "eq"), A, (EConst (VInt 4)). split; [reflexivity|]. split; [reflexivity|]. split; [intros [H|[]]; discriminate H|].
      intros m M. inversion M.
  - cbn [with_proper cte1]. split; [apply only_proper; [exact two_names|right; reflexivity|apply AX; left; reflexivity]|]. intros l _. apply only_proper; [exact two_names|left; reflexivity|apply AX; right; reflexivity].
  - intros out _. split; [|exact Logic.I]. cbn [with_proper]. split; [|split; [|reflexivity]].
    + apply only_proper; [exact two_names|left; reflexivity|]. apply Forall_cons; [apply col_free|]. apply Forall_cons; [apply add_free|apply Forall_nil].
    + apply only_proper; [exact two_names|left; reflexivity|apply AX; right; reflexivity].
Qed.
Example script1_new : new_names temps script1 empty.
Proof.
  split; [exact temps_inj|]. split; [reflexivity|]. intros c j [<-|[<-|[<-|[<-|[]]]]].
  - split; [intros E; cbn [writes insert1] in E; symmetry in E; revert E; apply temps_other; discriminate|]. split; intros [].
  - split; [intros E; cbn [writes delete1] in E; symmetry in E; revert E; apply temps_other; discriminate|]. split; intros [].
  - split; [intros E; cbn [writes insert2] in E; symmetry in E; revert E; apply temps_other; discriminate|]. split.
    + intros [E|(name & q & [E|[]] & R)]; [cbn in E; symmetry in E; revert E; apply temps_other; discriminate|]. injection E as <- <-. cbn in R. symmetry in R. revert R. apply temps_other. discriminate.
    + intros [E|[]]. destruct (temps_head j) as [x Q]. rewrite Q in E. discriminate E.
  - split; [intros []|]. split; [|intros []]. intros [[E|E]|(name & q & [] & _)]; cbn in E; symmetry in E; revert E; apply temps_other; discriminate.
Qed.
Example script1_separate : separate_names script1 empty.
Proof.
  assert (One : forall i ci name, nth_error script1 i = Some ci -> In name (with_names ci) -> i = 2%nat /\ name = t "c").
  { intros i ci name Hi I. destruct i as [|[|[|[|[|i]]]]]; cbn in Hi; try discriminate Hi; injection Hi as <-; cbn in I; try destruct I as [I|[]]; try (destruct I; fail). split; [reflexivity|symmetry; exact I]. }
  split; [|split].
  - intros c [<-|[<-|[<-|[<-|[]]]]]; cbn; try apply NoDup_nil. apply NoDup_cons; [intros []|apply NoDup_nil].
  - intros i j ci cj name Hi Hj I. destruct (One i ci name Hi I) as [-> ->]. split.
    + destruct j as [|[|[|[|[|j]]]]]; cbn in Hj; try discriminate Hj; injection Hj as <-; cbn [writes insert1 delete1 insert2 show1]; try (intros E; discriminate E); intros [].
    + intros Hne. split; [intros I'; destruct (One j cj _ Hj I') as [-> _]; destruct (Hne eq_refl)|].
      destruct j as [|[|[|[|[|j]]]]]; cbn in Hj; try discriminate Hj; injection Hj as <-; try (intros []; fail); [destruct (Hne eq_refl)|]. intros [[E|E]|(name & q & [] & _)]; discriminate E.
  - reflexivity.
Qed.
Example script1_no_prefix : forall c, In c script1 -> no_prefix temps (t "id") (with_part c).
Proof.
  intros c [<-|[<-|[<-|[<-|[]]]]]; try (intros ? ? ? []; fail). intros name q x [E|[]]. injection E as <- <-. split; [|split].
  - intros n E0 E. cbn in E0. subst n. discriminate E.
  - intros j E. unfold memory_table in E. rewrite <- !app_assoc in E. apply app_inv_head in E. destruct (temps_head j) as [r Q]. rewrite Q in E. discriminate E.
  - intros E. discriminate E.
Qed.

(** C232 is false: WITH c AS (SELECT a AS a FROM t) SELECT a AS a FROM c, executed twice, returns its rows, and then each of them twice; a table c then has them. *)
Definition twice : command := Show [(t "c", only [(A, ECol A)] None T_)] (only [(A, ECol A)] None (mt (t "c"))).
Definition one_row : text -> list (list (text * val)) := fun n => if text_eqb n T_ then [[(A, VInt 1)]] else [].
Theorem with_name_kept_refuted :
  shown_by (script0 [twice; twice; Show [] (only [(A, ECol A)] None (mt (t "c")))] one_row) =
    Ok [[[(A, VInt 1)]]; [[(A, VInt 1)]; [(A, VInt 1)]]; [[(A, VInt 1)]; [(A, VInt 1)]]] /\
  (forall out, with_means num_text fn0 (fun _ => []) leq0 equal_keys one_row [(t "c", only [(A, ECol A)] None T_)] (only [(A, ECol A)] None (mt (t "c"))) out -> out <> [[(A, VInt 1)]; [(A, VInt 1)]]).
Proof.
  split; [vm_compute; reflexivity|]. intros out (l & (l0 & E0 & A0) & M) ->. cbn [means only] in M. destruct M as (l1 & E1 & A1). subst l0. rewrite E1 in A1. clear E1.
  assert (L : forall table out, answers num_text fn0 (fun _ => []) leq0 equal_keys false (sel [(A, ECol A)] None [] None) table out -> length out = length table).
  { intros table o An. inversion An; subst.
    - match goal with H : plain_result _ _ _ _ _ _ |- _ => destruct H as (rs & S & ->) end. cbn [sel st_order st_where st_limit st_offset st_having paged holds]. destruct S as [Pm _].
      assert (F : forall (X : Type) (m : list X), filter (fun _ => true) m = m) by (intros X m; induction m as [|y m IH]; [reflexivity|cbn; rewrite IH; reflexivity]).
      rewrite F, map_length. symmetry. etransitivity; [|apply Permutation.Permutation_length; exact Pm]. cbn [sel st_where holds]. rewrite F. reflexivity.
    - exfalso. match goal with H : aggregates _ |- _ => destruct H as (n & e & [E|[]] & H); injection E as <- <-; exact (proj1 (proj2 (col_free A A)) H) end.
    - exfalso. match goal with H : st_group _ <> [] |- _ => exact (H eq_refl) end. }
  pose proof (L _ _ A0) as L0. pose proof (L _ _ A1) as L1. rewrite map_length in L0, L1. unfold define in L1. rewrite text_eqb_refl in L1. cbn in L0, L1. rewrite L0 in L1. discriminate L1.
Qed.
Print Assumptions with_name_kept_refuted.

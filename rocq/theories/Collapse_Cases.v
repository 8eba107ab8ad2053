(** Statements meeting the hypotheses of C224 and C225. *)
From Coq Require Import SpecFloat Permutation Sorting.Sorted.
From Verif Require Import Base PyVal Utils_Model Calc_Model Expr_Syntax Expr_Model Expr_Spec Expr_Proofs Expr_Props Where_Model Where_Spec Where_Proofs Where_Props
  Having_Model Having_Spec Having_Proofs Having_Props Agg_Spec Reduce_Spec Group_Syntax Group_Model Group_Spec Group_Proofs Group_Props
  Inner_Syntax Inner_Model Inner_Spec Inner_Proofs Inner_Props Select_Model Select_Spec Select_Proofs Select_Props Whole_Syntax Cast_Syntax Cast_Where Cast_Spec Cast_Proofs
  Whole_Model Whole_Spec Whole_Proofs Whole_Props Whole_Cases Collapse_Model Collapse_Spec Collapse_Props.
Open Scope Z_scope.
Notation fn0 := (sql_fn fr0 id0 with_add no_lib).

Definition last_row (rs : list row) : row := last rs (fun _ => VNone).
Definition run_c (d : bool) (st : statement) (table : list row) : res (list output) :=
  run_collapsed fr0 id0 with_add no_lib (fun _ => []) None first last_row (fun _ _ => VNone) (fun _ => VNone) nm0 (fun _ => Err OtherError) (fun _ _ => false) leq0 d st table.
Example last_row_in : forall rs, rs <> [] -> In (last_row rs) rs.
Proof.
  intros rs N_. destruct (exists_last N_) as (l & x & ->). unfold last_row. rewrite last_last. apply in_app_iff. right. left. reflexivity.
Qed.

(** SELECT a AS a, a + b AS x FROM t WHERE a > 0 GROUP BY a, x HAVING x > 3 ORDER BY x DESC, a LIMIT 2 OFFSET 1; the same with DISTINCT in place of GROUP BY. *)
Definition st5 (g : list group_item) : statement := mkstatement [(A, ECol A); (t "x", EBin (t "add") (ECol A) (ECol B))]
  (Some (EBin (t "gt") (ECol A) (EConst (VInt 0)))) g
  (Some (EBin (t "gt") (ECol (t "x")) (EConst (VInt 3)))) [(t "x", true); (A, false)] (Some 2) (Some 1).
Lemma st5_body : forall g, collapsing_body num_text fn0 (st5 g).
Proof.
  intros g. unfold collapsing_body. cbn [st_items st_where st_group st_having st_order st_limit st_offset st5 map fst snd].
  split; [discriminate|]. split; [|split; [|split; [|split; [|split]]]].
  - apply NoDup_cons; [intros [E|[]]; discriminate E|]. apply NoDup_cons; [intros []|apply NoDup_nil].
  - apply Forall_cons; [|apply Forall_cons; [|apply Forall_nil]]; cbn [snd].
    + split; [constructor|]. split; [|discriminate]. intros (x & a & P & H). apply no_parts_col in P. subst. discriminate H.
    + split; [apply X_bin; constructor|]. split; [|discriminate]. intros (x & a & P & H). apply part_inv in P. destruct P as [->|(i & c & K & P)]; [discriminate H|].
      cbn in K. destruct K as [K|[K|[]]]; injection K as <- <-; apply no_parts_col in P; subst; discriminate H.
  - intros e E. injection E as <-. apply compare_leaf. reflexivity.
  - intros e E. injection E as <-. split; [apply HC_cmp; [reflexivity|constructor|constructor]|]. intros n M. apply columns_mentions in M. cbn in M. destruct M as [<-|[]]. right. left. reflexivity.
  - intros n E. injection E as <-. lia.
  - right. discriminate.
Qed.
Lemma st5_unused : forall g, (forall e, ~ In (KeyExp e) g) -> ~ used (st5 g) (t "x").
Proof.
  intros g G [(m & e & [I|[I|[]]] & M)|[(e & E & M)|[(e & x & E & O & N1 & M)|(e & I & _)]]].
  - injection I as <- <-. apply columns_mentions in M. destruct M as [M|[]]; discriminate M.
  - injection I as <- <-. apply columns_mentions in M. destruct M as [M|[M|[]]]; discriminate M.
  - injection E as <-. apply columns_mentions in M. vm_compute in M. repeat (destruct M as [M|M]; [discriminate M|]). exact M.
  - injection E as <-. inversion O as [| | |k a b [->| ->]| | |]; subst; [apply N1; reflexivity|]. apply columns_mentions in M. destruct M.
  - exact (G e I).
Qed.
Definition g5 : list group_item := [KeyCol false A; KeyCol false (t "x")].
Example st5_grouped : bare_group_statement num_text fn0 (st5 g5).
Proof.
  split; [apply st5_body|]. split; [discriminate|]. split; [repeat constructor|]. apply Forall_cons; [|apply Forall_cons; [|apply Forall_nil]]; cbn [fst].
  - eexists. split; [right; left; reflexivity|]. right. apply st5_unused. intros e [I|[I|[]]]; discriminate I.
  - eexists. split; [left; reflexivity|]. left. split; [reflexivity|]. eexists. left. reflexivity.
Qed.
Example st5_distinct : distinct_statement num_text fn0 (st5 []).
Proof.
  split; [apply st5_body|]. split; [reflexivity|]. apply Forall_cons; [|apply Forall_cons; [|apply Forall_nil]]; cbn [fst].
  - eexists. split; [right; left; reflexivity|]. right. apply st5_unused. intros e [].
  - eexists. split; [left; reflexivity|]. left. reflexivity.
Qed.
Definition table5 : list row := tab [(4, 2); (1, 9); (4, 2); (0, 7); (2, 5); (3, 4); (1, 9); (2, 5)].
Example st5_keys : proper_keys num_text fn0 equal_keys (bare_key num_text fn0 (st5 g5)) (st5 g5) table5 /\
  proper_keys num_text fn0 equal_keys (item_values num_text fn0 (st5 [])) (st5 []) table5.
Proof. split; intros r I _; cbn [table5 tab map In] in I; (repeat (destruct I as [<-|I]; [vm_compute; reflexivity|])); destruct I. Qed.
Example st5_runs : run_c false (st5 g5) table5 = Ok [[(A, VInt 2); (t "x", VInt 7)]; [(A, VInt 3); (t "x", VInt 7)]] /\
  run_c true (st5 []) table5 = run_c false (st5 g5) table5.
Proof. vm_compute. split; reflexivity. Qed.

(** C32, C35, C51: two-task execution, DISTINCT, concrete cases and refutations. *)
From Coq Require Import Permutation Sorting.Sorted.
From Verif Require Import Base Select_Model Select_Spec Select_Proofs Select_Props.
Local Open Scope Z_scope.

Lemma sort_nothing : forall A K leK (field : text -> A -> K) l, sort (le_by K leK field []) l = l.
Proof.
  intros. induction l as [|x l IH]; [reflexivity|]. unfold sort in *. cbn [fold_right]. rewrite IH. destruct l; reflexivity.
Qed.
(** Splitting a query with final values (AVG, COUNT(DISTINCT), ...) into two tasks does not change its result: HAVING, ORDER BY and
    LIMIT see the final values. *)
Theorem two_tasks_same : forall Row Mid Out K leK src_field mid_field out_field out out' grouped grouped' distinct distinct' aggregated' grouped'' distinct''
    (mid : list Row -> list Mid) (finish : Mid -> Out) (t : task Row Out) source,
  t_kind t = KComputed ->
  run_task Mid Out K leK mid_field out_field finish aggregated' grouped' distinct' (snd (split_task t))
    (run_task Row Mid K leK src_field mid_field out' mid grouped'' distinct'' (fst (split_task t)) source) =
  run_task Row Out K leK src_field out_field out (fun l => map finish (mid l)) grouped distinct t source.
Proof.
  intros. unfold run_task, split_task. cbn [fst snd t_pipelines t_having t_kind t_predicate t_limit t_orders]. rewrite H. cbn [compute keep fold_left].
  rewrite sort_nothing. change (take 0 ?l) with l. reflexivity.
Qed.
Print Assumptions two_tasks_same.

(** ** DISTINCT.  Reading of the external package: rows whose key columns (all selected columns) are equal are merged into the
    first of them. *)
Section Distinct.
Variables Row Out K : Type.
Variable leK : K -> K -> bool.
Variable src_field : text -> Row -> K.
Variable out_field : text -> Out -> K.
Variable out : Row -> Out.
Variables aggregated grouped : list Row -> list Out.
Variable same : Out -> Out -> bool.
Fixpoint dedup (seen l : list Out) : list Out :=
  match l with
  | [] => []
  | x :: r => if existsb (same x) seen then dedup seen r else x :: dedup (seen ++ [x]) r
  end.
Let run := run_select Row Out K leK src_field out_field out aggregated grouped (fun l => dedup [] (map out l)).
Definition with_distinct (q : select Row Out) (b : bool) : select Row Out :=
  mkselect (s_schema _ _ q) (s_aggregate _ _ q) (s_columns _ _ q) (s_table _ _ q) (s_alias _ _ q) (s_select_columns _ _ q)
    (s_predicate _ _ q) (s_having _ _ q) (s_group _ _ q) b (s_order _ _ q) (s_limit _ _ q) (s_offset _ _ q).

Lemma dedup_fresh : forall l seen x, In x (dedup seen l) -> existsb (same x) seen = false.
Proof.
  induction l as [|y l IH]; intros seen x I; cbn [dedup] in I; [destruct I|]. destruct (existsb (same y) seen) eqn:E; [apply IH, I|].
  destruct I as [<-|I]; [exact E|]. apply IH in I. rewrite existsb_app in I. apply orb_false_iff in I. apply I.
Qed.
Lemma dedup_nodup : forall l seen, ForallOrdPairs (fun x y => same y x = false) (dedup seen l).
Proof.
  induction l as [|y l IH]; intros seen; cbn [dedup]; [constructor|]. destruct (existsb (same y) seen) eqn:E; [apply IH|].
  constructor; [|apply IH]. apply Forall_forall. intros x I. apply dedup_fresh in I. rewrite existsb_app in I. apply orb_false_iff in I. destruct I as [_ I].
  cbn [existsb] in I. apply orb_false_iff in I. apply I.
Qed.
Lemma dedup_covers : (forall x, same x x = true) -> forall l seen x, In x l -> existsb (same x) (seen ++ dedup seen l) = true.
Proof.
  intros R l. induction l as [|y l IH]; intros seen x I; [destruct I|]. cbn [dedup]. destruct (existsb (same y) seen) eqn:E.
  - destruct I as [<-|I]; [rewrite existsb_app, E; reflexivity|apply IH, I].
  - destruct I as [<-|I]; [rewrite existsb_app; cbn [existsb]; rewrite R, orb_true_r; reflexivity|].
    specialize (IH (seen ++ [y]) x I). rewrite <- app_assoc in IH. exact IH.
Qed.
Lemma dedup_sub : forall l seen, sublist (dedup seen l) l.
Proof. induction l as [|y l IH]; intros seen; cbn [dedup]; [constructor|]. destruct (existsb (same y) seen); constructor; apply IH. Qed.

Lemma order_with_distinct : forall q b, compile_order Row Out (with_distinct q b) = compile_order _ _ q.
Proof.
  intros q b. unfold compile_order. cbn [s_order s_schema with_distinct].
  assert (E : forall l, order_keys Row Out (with_distinct q b) l = order_keys Row Out q l).
  { induction l as [|it l IH]; [reflexivity|]. cbn [order_keys]. rewrite IH. reflexivity. }
  rewrite E. reflexivity.
Qed.

(** C51: without GROUP BY, aggregates, windows, ORDER BY on computed columns and LIMIT, SELECT DISTINCT returns rows of
    the same query without DISTINCT, no two of them equal, and one equal to each of them. *)
Theorem distinct_rows : forall q source all, (forall x, same x x = true) ->
  (forall x y h, s_having _ _ q = Some h -> same x y = true -> h x = h y) ->
  has_aggregates _ _ q = false -> s_group _ _ q = false -> has_windows _ _ q = false ->
  (exists n names, s_schema _ _ q = Some (n :: names)) ->
  s_limit _ _ q = None -> s_offset _ _ q = None -> (exists o, compile_order _ _ q = Ok (o, [])) ->
  run (with_distinct q false) source = Ok all ->
  exists l, run (with_distinct q true) source = Ok l /\ sublist l all /\ ForallOrdPairs (fun x y => same y x = false) l /\
            forall x, In x all -> exists y, In y l /\ same x y = true.
Proof.
  intros q src all Refl HH HA HG HW (n & names & HS) HL HO (o & EO) R. unfold run, run_select, compile_select in *. rewrite !order_with_distinct, EO in *. cbn [bind fst snd] in *.
  unfold compile_limit in *. cbn [s_limit s_offset with_distinct] in *. rewrite HL, HO in *. change (negb (0 =? 0) || (0 <? 0))%bool with false in *. cbv iota zeta in *.
  unfold select_kind in *. change (has_aggregates Row Out (with_distinct q false)) with (has_aggregates Row Out q) in R.
  change (has_aggregates Row Out (with_distinct q true)) with (has_aggregates Row Out q).
  change (has_windows Row Out (with_distinct q false)) with (has_windows Row Out q) in R.
  cbn [s_group s_distinct s_schema with_distinct] in *. rewrite HA, HG, ?HW, ?HS in *. cbn [bind] in *. injection R as <-.
  eexists. split; [reflexivity|]. unfold run_task. cbn [t_pipelines t_having t_kind t_predicate t_limit t_orders s_predicate s_having with_distinct fold_left compute].
  set (rows := map out (keep (s_predicate Row Out q) (take 0 (sort (le_by K leK src_field o) src)))). clearbody rows.
  assert (Sub : sublist (dedup [] rows) rows) by apply dedup_sub. assert (ND : ForallOrdPairs (fun x y => same y x = false) (dedup [] rows)) by apply dedup_nodup.
  assert (Cov : forall x, In x rows -> exists y, In y (dedup [] rows) /\ same x y = true).
  { intros x I. apply (dedup_covers Refl rows [] x) in I. apply existsb_exists in I. exact I. }
  destruct (s_having Row Out q) as [h|]; cbn [keep]; [|auto]. split; [|split].
  - clear -Sub. induction Sub as [|x a b S IH|x a b S IH]; cbn [filter]; [constructor| |]; destruct (h x); try constructor; assumption.
  - clear -ND. induction ND as [|x l F ND IH]; cbn [filter]; [constructor|]. destruct (h x); [|exact IH]. constructor; [|exact IH].
    apply incl_Forall with (l1 := l); [|exact F]. intros z I. apply filter_In in I. apply I.
  - intros x I. apply filter_In in I. destruct I as [I Hx]. destruct (Cov x I) as (y & Iy & Sy). exists y. split; [|exact Sy].
    apply filter_In. split; [exact Iy|]. rewrite <- (HH x y h eq_refl Sy). exact Hx.
Qed.
(** ... with GROUP BY or aggregates, DISTINCT has no effect. *)
Theorem distinct_ignored_refuted : forall q source, has_aggregates _ _ q = true \/ s_group _ _ q = true ->
  run (with_distinct q true) source = run (with_distinct q false) source.
Proof.
  intros q src H. unfold run, run_select, compile_select. rewrite !order_with_distinct. destruct (compile_order Row Out q) as [[o p]|]; [|reflexivity]. cbn [bind].
  assert (EK : select_kind Row Out (with_distinct q true) = select_kind Row Out (with_distinct q false)).
  { unfold select_kind. change (has_aggregates Row Out (with_distinct q true)) with (has_aggregates Row Out q).
    change (has_aggregates Row Out (with_distinct q false)) with (has_aggregates Row Out q). cbn [s_group with_distinct].
    destruct H as [-> | ->]; [reflexivity|]. destruct (has_aggregates Row Out q); reflexivity. }
  rewrite EK. reflexivity.
Qed.
End Distinct.
Print Assumptions distinct_rows.

(** ** Concrete queries over rows with integer columns *)
Definition zrow := list (text * Z).
Definition get (n : text) (r : zrow) : Z := match assoc n r with Some v => v | None => 0 end.
Definition zsame (a b : zrow) : bool := forallb (fun kv => Z.eqb (get (fst kv) b) (snd kv)) a && forallb (fun kv => Z.eqb (get (fst kv) a) (snd kv)) b.
(** SELECT COUNT( * ) AS c ... GROUP BY a. *)
Definition count_by_a (l : list zrow) : list zrow :=
  let keys := fold_left (fun ks r => if existsb (Z.eqb (get (t "a") r)) ks then ks else ks ++ [get (t "a") r]) l [] in
  map (fun k => [(t "c", Z.of_nat (length (filter (fun r => Z.eqb (get (t "a") r) k) l)))]) keys.
Definition zrun (out : zrow -> zrow) : select zrow zrow -> list zrow -> res (list zrow) :=
  run_select zrow zrow Z Z.leb get get out count_by_a (fun l => map out l) (fun l => dedup zrow zsame [] (map out l)).
(** A query on table t without alias; [schema]: selected names, [columns]: columns of t used. *)
Definition on_t (schema columns : list text) (distinct : bool) (order : list order_item) (limit : option Z) : select zrow zrow :=
  mkselect (Some schema) None columns (t "t") None [] None None false distinct order limit None.
Definition a_rows : list zrow := [[(t "a", 1)]; [(t "a", 1)]; [(t "a", 2)]].

(** SELECT DISTINCT a FROM t LIMIT 2 returns one row out of two. *)
Theorem distinct_limit_refuted :
  let q limit := on_t [t "a"] [t "a"] true [] limit in
  zrun (fun r => r) (q None) a_rows = Ok [[(t "a", 1)]; [(t "a", 2)]] /\
  zrun (fun r => r) (q (Some 2)) a_rows = Ok [[(t "a", 1)]].
Proof. split; reflexivity. Qed.
(** SELECT -a AS a FROM t ORDER BY a is sorted by the column a of the table, not by the selected a. *)
Theorem order_alias_refuted :
  zrun (fun r => [(t "a", - get (t "a") r)]) (on_t [t "a"] [t "a"] false [OCol [] (t "a") false] None) [[(t "a", 1)]; [(t "a", 2)]] =
  Ok [[(t "a", -1)]; [(t "a", -2)]].
Proof. reflexivity. Qed.
(** SELECT x.a, j.a AS b FROM t x JOIN j ... ORDER BY j.a is sorted by x.a: only the name of the column is used. *)
Theorem order_join_column_refuted :
  let q := mkselect (Some [t "a"; t "b"]) None [t "a"] (t "x") (Some (t "x")) [] None None false false [OCol (t "j") (t "a") false] None None in
  zrun (fun r => [(t "a", get (t "x.a") r); (t "b", get (t "j.a") r)]) q [[(t "x.a", 1); (t "j.a", 9)]; [(t "x.a", 2); (t "j.a", 8)]] =
  Ok [[(t "a", 1); (t "b", 9)]; [(t "a", 2); (t "b", 8)]].
Proof. reflexivity. Qed.
(** SELECT DISTINCT COUNT( * ) AS c FROM t GROUP BY a returns the same count twice. *)
Theorem distinct_count_refuted :
  zrun (fun r => r) (mkselect (Some [t "c"]) (Some ([t "c"], [])) [t "a"] (t "t") None [] None None true true [] None None)
    [[(t "a", 1)]; [(t "a", 2)]] = Ok [[(t "c", 1)]; [(t "c", 1)]].
Proof. reflexivity. Qed.
Print Assumptions distinct_count_refuted.

(** The hypotheses of the theorems are met by queries that sort by the source and afterwards. *)
Example z_preorder : total_preorder Z.leb.
Proof. split; intros; rewrite ?Z.leb_le in *; lia. Qed.
Definition ab_key (it : order_item) (r : zrow) : Z :=
  match it with OCol _ n _ => get n r | OExp _ _ _ => get (t "a") r + get (t "b") r end.
Definition ab_out (r : zrow) : zrow := [(t "a", get (t "a") r); (t "s", get (t "a") r + get (t "b") r)].
Definition ab_query : select zrow zrow :=
  mkselect (Some [t "a"; t "s"]) None [t "a"; t "b"] (t "t") None [(t "s", t "a + b")] (Some (fun r => 0 <? get (t "b") r)) None
    false false [OCol [] (t "a") true; OExp (t "a + b") (t "a + b") false] (Some 2) (Some 1).
Example order_limit_case :
  source_names zrow zrow Z get ab_key ab_query /\
  result_names zrow zrow Z ab_query (fun n r => get n (ab_out r)) ab_key /\
  select_kind _ _ ab_query = Ok KPlain /\ collapses ab_query = false /\
  compile_order _ _ ab_query = Ok ([(t "a", true)], [PSort [(t "a", true); (t "s", false)]]) /\
  zrun ab_out ab_query [[(t "a", 1); (t "b", 7)]; [(t "a", 2); (t "b", 5)]; [(t "a", 2); (t "b", 3)]; [(t "a", 3); (t "b", 0)]; [(t "a", 1); (t "b", 6)]] =
  Ok [[(t "a", 2); (t "s", 7)]; [(t "a", 1); (t "s", 7)]].
Proof.
  split; [|split; [|repeat split]].
  - intros table name d [E|[E|[]]] _ r; [|discriminate]. injection E as <- <- <-. reflexivity.
  - intros schema E. injection E as <-. split.
    + intros table name d [E|[E|[]]] _ r; [|discriminate]. injection E as <- <- <-. reflexivity.
    + intros sql lsql d [E|[E|[]]]; [discriminate|]. injection E as <- <- <-. split.
      * intros [X|[X|[]]]; discriminate.
      * intros alias [X|[]] r. injection X as <-. reflexivity.
Qed.
Example distinct_case : exists l,
  zrun (fun r => r) (on_t [t "a"] [t "a"] true [OCol [] (t "a") true] None) (a_rows ++ a_rows) = Ok l /\ l = [[(t "a", 2)]; [(t "a", 1)]].
Proof. eexists. split; reflexivity. Qed.

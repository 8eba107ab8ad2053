(** C70: annotations of columns. *)
From Coq Require Import Lia.
From Verif Require Import Base Str_Model Insert_Model Annot_Model Annot_Spec.
Open Scope nat_scope.

Lemma sep_join : forall c l, sep c l = join [c] l.
Proof. intros c l. induction l as [|x [|y r] IH]; try reflexivity. cbn [sep join]. f_equal. cbn [app]. f_equal. exact IH. Qed.

Lemma split_part : forall c p cur r, ~ In c p -> split_go [c] 0 cur (p ++ r) = split_go [c] 0 (rev p ++ cur) r.
Proof.
  intros c p. induction p as [|x p IH]; intros cur r N; [reflexivity|]. cbn [app split_go prefixb].
  assert ((c =? x)%N = false) as -> by (apply N.eqb_neq; intro H; apply N; left; congruence). cbn [andb].
  rewrite IH by (intro H; apply N; right; exact H). cbn [rev]. rewrite <- app_assoc. reflexivity.
Qed.
Lemma split_sep : forall c l, l <> [] -> (forall p, In p l -> ~ In c p) -> split_go [c] 0 [] (sep c l) = l.
Proof.
  intros c l. induction l as [|x l IH]; intros N H; [congruence|]. destruct l as [|y l].
  - cbn [sep]. rewrite <- (app_nil_r x) at 1. rewrite split_part by (apply H; left; reflexivity). cbn [split_go]. rewrite app_nil_r, rev_involutive. reflexivity.
  - change (sep c (x :: y :: l)) with (x ++ c :: sep c (y :: l)). rewrite split_part by (apply H; left; reflexivity).
    cbn [split_go prefixb]. rewrite N.eqb_refl. cbn [andb length Nat.sub]. rewrite app_nil_r, rev_involutive. f_equal. apply IH; [discriminate|].
    intros p I. apply H. right. exact I.
Qed.

Lemma index_first : forall c a b, ~ In c a -> index_of c (a ++ c :: b) = Some (length a).
Proof.
  intros c a b N. induction a as [|x a IH]; cbn [app index_of length].
  - rewrite N.eqb_refl. reflexivity.
  - assert ((x =? c)%N = false) as -> by (apply N.eqb_neq; intro H; apply N; left; exact H).
    rewrite IH by (intro H; apply N; right; exact H). reflexivity.
Qed.
Lemma index_none : forall c a, ~ In c a -> index_of c a = None.
Proof.
  intros c a N. induction a as [|x a IH]; [reflexivity|]. cbn [index_of].
  assert ((x =? c)%N = false) as -> by (apply N.eqb_neq; intro H; apply N; left; exact H).
  rewrite IH by (intro H; apply N; right; exact H). reflexivity.
Qed.
Lemma rindex_last : forall c a b, ~ In c b -> rindex_of c (a ++ c :: b) = Some (length a).
Proof.
  intros c a b N. unfold rindex_of. rewrite rev_app_distr. cbn [rev]. rewrite <- app_assoc. cbn [app].
  rewrite index_first by (intro H; apply N; apply in_rev; exact H). f_equal. rewrite app_length, rev_length. cbn [length]. lia.
Qed.
Lemma between_mid : forall a x m y b, between (a ++ x :: m ++ y :: b) (length a) (length (a ++ x :: m)) = m.
Proof.
  intros. unfold between. rewrite app_length. cbn [length].
  replace (length a + S (length m) - S (length a)) with (length m) by lia.
  replace (a ++ x :: m ++ y :: b) with ((a ++ [x]) ++ m ++ y :: b) by (rewrite <- app_assoc; reflexivity).
  replace (S (length a)) with (length (a ++ [x])) by (rewrite app_length; cbn; lia).
  rewrite skipn_app, skipn_all, Nat.sub_diag. cbn [skipn app]. rewrite firstn_app, firstn_all, Nat.sub_diag. cbn [firstn]. apply app_nil_r.
Qed.

Lemma sep_in : forall c s l, In c (sep s l) -> c = s \/ exists p, In p l /\ In c p.
Proof.
  intros c s l. induction l as [|x [|y r] IH]; [intros []| |].
  - intro H. right. exists x. split; [left; reflexivity|exact H].
  - change (sep s (x :: y :: r)) with (x ++ s :: sep s (y :: r)). intro H. apply in_app_or in H as [H|[H|H]].
    + right. exists x. split; [left; reflexivity|exact H].
    + left. congruence.
    + destruct (IH H) as [K|[p [I K]]]; [left; exact K|right; exists p; split; [right; exact I|exact K]].
Qed.

Lemma type_filters_types : forall w, assoc w type_filters = type_of w.
Proof.
  intro w.
  assert (G : forall l : list string, (forall n, In n l -> text_eqb w (t n) = true -> assoc w type_filters = type_of w) ->
     (existsb (fun n => text_eqb w (t n)) l = false -> assoc w type_filters = type_of w) -> assoc w type_filters = type_of w).
  { intros l H K. destruct (existsb (fun n => text_eqb w (t n)) l) eqn:E; [|exact (K eq_refl)].
    apply existsb_exists in E as [n [I X]]. exact (H n I X). }
  apply (G (flat_map snd types)).
  - intros n I X. apply text_eqb_spec in X. subst w. cbn [flat_map snd types app] in I.
    repeat (destruct I as [<-|I]; [vm_compute; reflexivity|]). destruct I.
  - intro N. unfold type_of. destruct (find _ types) eqn:F.
    + apply find_some in F as [I X]. exfalso. apply existsb_exists in X as [n [J X]].
      assert (existsb (fun n => text_eqb w (t n)) (flat_map snd types) = true); [|congruence].
      apply existsb_exists. exists n. split; [apply in_flat_map; exists p; split; assumption|exact X].
    + clear F. destruct (assoc w type_filters) as [v0|] eqn:A; [|reflexivity]. exfalso.
      assert (I : In w (map fst type_filters)).
      { clear N. revert A. generalize type_filters. induction l as [|[k v] l IH]; cbn [assoc map fst In]; [discriminate|].
        destruct (text_eqb w k) eqn:X; [apply text_eqb_spec in X; left; congruence|right; apply IH; assumption]. }
      assert (existsb (fun n => text_eqb w (t n)) (flat_map snd types) = true); [|congruence]. clear N A.
      cbn [map fst type_filters] in I. repeat (destruct I as [<-|I]; [vm_compute; reflexivity|]). destruct I.
Qed.

Section Props.
Variable lower : text -> text.
Variable registered : text -> bool.

(** The conversion a type stands for, if there is one. *)
Definition conversion (w : text) : option text :=
  match type_of (lower w) with
  | Some f => Some f
  | None => if registered (lower w) then Some (lower w) else None
  end.
Definition conversions (anns : list ann) : list text :=
  flat_map (fun a => match conversion (a_type a) with Some f => [sep 32 (f :: a_args a)] | None => [] end) anns.

Lemma annotation_written : forall a, (forall p, In p (a_type a :: a_args a) -> ~ In 32%N p) ->
  annotation lower registered (written_ann a) = match conversion (a_type a) with Some f => [sep 32 (f :: a_args a)] | None => [] end.
Proof.
  intros a H. unfold annotation, written_ann. rewrite split_sep by (exact H || discriminate). cbv zeta. unfold conversion. rewrite <- type_filters_types.
  destruct (assoc (lower (a_type a)) type_filters); [rewrite sep_join; reflexivity|]. destruct (registered (lower (a_type a))); [rewrite sep_join|]; reflexivity.
Qed.

(** C70: a column written name[type args;...]<option,...> is the column [name], with the conversions its types stand for, in order, and its
    options; types that stand for nothing are skipped. *)
Theorem annotated_column : forall name anns options,
  without [91; 60]%N name ->
  (forall a p, In a anns -> In p (a_type a :: a_args a) -> without [32; 59; 60]%N p) ->
  (forall o, In o options -> without [44; 91; 93]%N o) ->
  (anns = [] -> options = []) ->
  parse_column lower registered None [] (written name anns options) =
  {| p_name := name; p_filters := conversions anns; p_options := options |}.
Proof.
  intros name anns options HN HA HO HE. unfold written.
  set (A := map written_ann anns).
  assert (A60 : forall c, In c [60]%N -> ~ In c (brackets 91 59 93 A)).
  { intros c [<-|[]] I. unfold brackets in I. destruct A as [|x A0] eqn:EA; [destruct I|]. rewrite <- EA in I.
    destruct I as [I|I]; [discriminate|]. apply in_app_or in I as [I|[I|[]]]; [|discriminate].
    apply sep_in in I as [I|[p [Ip Ic]]]; [discriminate|]. unfold A in Ip. apply in_map_iff in Ip as [a [<- Ia]].
    unfold written_ann in Ic. apply sep_in in Ic as [K|[p [Ip Ic]]]; [discriminate|]. apply (HA a p Ia Ip _ Ic). right; right; left; reflexivity. }
  assert (A59 : forall p, In p A -> ~ In 59%N p).
  { intros p Ip Ic. unfold A in Ip. apply in_map_iff in Ip as [a [<- Ia]]. unfold written_ann in Ic.
    apply sep_in in Ic as [K|[p [Ip Ic]]]; [discriminate|]. apply (HA a p Ia Ip _ Ic). right; left; reflexivity. }
  assert (OB : forall c, In c [91; 93]%N -> ~ In c (brackets 60 44 62 options)).
  { intros c Hc I. unfold brackets in I. destruct options as [|x o]; [destruct I|].
    assert (C : c = 91%N \/ c = 93%N) by (destruct Hc as [<-|[<-|[]]]; auto).
    destruct I as [I|I]; [destruct C; subst; discriminate|]. apply in_app_or in I as [I|[I|[]]]; [|destruct C; subst; discriminate].
    apply sep_in in I as [I|[p [Ip Ic]]]; [destruct C; subst; discriminate|]. apply (HO p Ip c Ic). destruct C; subst; cbn; auto. }
  assert (F : (match index_of 91 (name ++ brackets 91 59 93 A ++ brackets 60 44 62 options), rindex_of 93 (name ++ brackets 91 59 93 A ++ brackets 60 44 62 options) with
    | Some i, Some j => (firstn i (name ++ brackets 91 59 93 A ++ brackets 60 44 62 options),
        [] ++ flat_map (annotation lower registered) (split_go [59%N] 0 [] (between (name ++ brackets 91 59 93 A ++ brackets 60 44 62 options) i j)))
    | _, _ => (name ++ brackets 91 59 93 A ++ brackets 60 44 62 options, [])
    end) = (name, conversions anns)).
  { destruct anns as [|a0 anns0] eqn:EA.
    - rewrite (HE eq_refl). cbn [map] in A. unfold A. cbn [brackets app]. rewrite app_nil_r.
      rewrite index_none by (intro I; apply (HN _ I); left; reflexivity). reflexivity.
    - assert (AN : A <> []) by (unfold A; discriminate). rewrite <- EA in *. clear HE.
      assert (BR : brackets 91 59 93 A = 91%N :: sep 59 A ++ [93%N]) by (unfold brackets; destruct A; [congruence|reflexivity]).
      rewrite BR. cbn [app]. rewrite <- app_assoc. cbn [app].
      rewrite index_first by (intro I; apply (HN _ I); left; reflexivity).
      replace (name ++ 91%N :: sep 59 A ++ 93%N :: brackets 60 44 62 options) with ((name ++ 91%N :: sep 59 A) ++ 93%N :: brackets 60 44 62 options)
        at 1 by (rewrite <- app_assoc; reflexivity).
      rewrite rindex_last by (apply OB; right; left; reflexivity). rewrite between_mid.
      rewrite firstn_app, firstn_all, Nat.sub_diag. cbn [firstn]. rewrite app_nil_r. cbn [app]. f_equal.
      rewrite split_sep by assumption. change A with (map written_ann (a0 :: anns0)). rewrite <- EA. unfold conversions. clear - HA. induction anns as [|a anns IH]; [reflexivity|]. cbn [map flat_map].
      rewrite IH by (intros b p I J; exact (HA b p (or_intror I) J)). f_equal. apply annotation_written.
      intros p Ip Ic. apply (HA a p (or_introl eq_refl) Ip _ Ic). left. reflexivity. }
  assert (G : (match index_of 60 (name ++ brackets 91 59 93 A ++ brackets 60 44 62 options), rindex_of 62 (name ++ brackets 91 59 93 A ++ brackets 60 44 62 options) with
    | Some i, Some j => split_go [44%N] 0 [] (between (name ++ brackets 91 59 93 A ++ brackets 60 44 62 options) i j)
    | _, _ => [] end) = options).
  { destruct options as [|o os] eqn:EO.
    - cbn [brackets]. rewrite app_nil_r. rewrite index_none; [reflexivity|]. intro I. apply in_app_or in I as [I|I]; [apply (HN _ I); right; left; reflexivity|].
      exact (A60 _ (or_introl eq_refl) I).
    - rewrite <- EO in *. assert (BR : brackets 60 44 62 options = 60%N :: sep 44 options ++ [62%N]) by (rewrite EO; reflexivity).
      rewrite BR, app_assoc. set (P := name ++ brackets 91 59 93 A).
      assert (P60 : ~ In 60%N P).
      { unfold P. intro I. apply in_app_or in I as [I|I]; [apply (HN _ I); right; left; reflexivity|exact (A60 _ (or_introl eq_refl) I)]. }
      rewrite index_first by exact P60.
      replace (P ++ 60%N :: sep 44 options ++ [62%N]) with ((P ++ 60%N :: sep 44 options) ++ 62%N :: []) at 1 by (rewrite <- app_assoc; reflexivity).
      rewrite rindex_last by (intros []). rewrite between_mid. apply split_sep; [congruence|].
      intros p I J. apply (HO p I _ J). left. reflexivity. }
  unfold parse_column. cbv zeta.
  match goal with |- (let (n, f) := ?X in _) = _ => replace X with (name, conversions anns) by (symmetry; exact F) end.
  f_equal. exact G.
Qed.

(** A plain name has no annotations. *)
Theorem plain_column : forall name, without [91; 60]%N name ->
  parse_column lower registered None [] name = {| p_name := name; p_filters := []; p_options := [] |}.
Proof.
  intros name H. pose proof (annotated_column name [] [] H) as A. unfold written in A. cbn [map brackets app conversions flat_map] in A.
  rewrite app_nil_r in A. apply A; [intros a p []|intros o []|reflexivity].
Qed.
End Props.

(** C70: up to two conversions are applied one after the other, *)
Theorem conversions_applied : forall V (field : text -> V) apply input c fs, length fs <= 2 ->
  read field apply input (compile_column c fs) = through apply fs (field c).
Proof.
  intros V field apply input c [|f [|g [|h r]]] L; try reflexivity. cbn [length] in L. lia.
Qed.

(** of more than two only the first and the last. *)
Theorem conversions_many : forall V (field : text -> V) apply input c f m l, m <> [] ->
  read field apply input (compile_column c (f :: m ++ [l])) = apply l (apply f (field c)).
Proof.
  intros V field apply input c f m l N. unfold compile_column.
  destruct (m ++ [l]) as [|x r] eqn:X; [destruct m; discriminate|]. rewrite <- X. clear X x r N.
  cbn [read]. induction m as [|x m IH].
  - reflexivity.
  - cbn [app compile_column_filter]. destruct (m ++ [l]) as [|y r] eqn:X; [destruct m; discriminate|]. rewrite <- X in *. cbn [read]. apply IH.
Qed.

(** The conversions in between leave no trace: no reading of the configuration can apply them. *)
Theorem conversion_in_between_refuted : forall A (reading : column -> A) c f m m' l, length m = length m' ->
  reading (compile_column c (f :: m ++ [l])) = reading (compile_column c (f :: m' ++ [l])).
Proof.
  intros A reading c f m m' l L. f_equal. unfold compile_column.
  assert (G : forall first m m', length m = length m' -> compile_column_filter first (m ++ [l]) = compile_column_filter first (m' ++ [l])).
  { clear. intros first m. induction m as [|x m IH]; intros [|y m'] L; cbn [length] in L; try lia; [reflexivity|].
    cbn [app compile_column_filter]. assert (L' : length m = length m') by lia. specialize (IH m' L').
    destruct (m ++ [l]) eqn:X; [destruct m; discriminate|]. destruct (m' ++ [l]) eqn:Y; [destruct m'; discriminate|]. rewrite IH. reflexivity. }
  destruct (m ++ [l]) eqn:X; [destruct m; discriminate|]. destruct (m' ++ [l]) eqn:Y; [destruct m'; discriminate|]. rewrite <- X, <- Y.
  rewrite (G _ m m' L). reflexivity.
Qed.
Theorem conversions_refuted : ~ exists reading : column -> (text -> nat -> nat) -> nat,
  forall c fs apply, reading (compile_column c fs) apply = through apply fs 0.
Proof.
  intros [reading H].
  pose (app := fun (f : text) (n : nat) => if text_eqb f (t "b") then S n else n).
  pose proof (H (t "x") [t "a"; t "b"; t "a"] app) as H1. pose proof (H (t "x") [t "a"; t "a"; t "a"] app) as H2.
  assert (E : compile_column (t "x") [t "a"; t "b"; t "a"] = compile_column (t "x") [t "a"; t "a"; t "a"]) by reflexivity.
  rewrite E, H2 in H1. discriminate.
Qed.

(** A blank after the semicolon hides the annotation, and an option without a type becomes part of the name. *)
Theorem blank_hides_annotation_refuted : forall lower registered, (forall s, lower s = s) -> registered [] = false ->
  p_filters (parse_column lower registered None [] (t "a[int; str]")) = [t "int"] /\
  p_filters (parse_column lower registered None [] (t "a[int;str]")) = [t "int"; t "str"].
Proof. intros lower registered L R. unfold parse_column, annotation. cbn. rewrite !L. cbn. rewrite R. split; reflexivity. Qed.
Theorem option_alone_refuted : forall lower registered,
  p_name (parse_column lower registered None [] (t "id<pk>")) = t "id<pk>" /\ p_options (parse_column lower registered None [] (t "id<pk>")) = [t "pk"].
Proof. intros. split; reflexivity. Qed.

Example annotated_hyps :
  parse_column (fun s => s) (fun _ => false) None [] (written (t "created") [{| a_type := t "timestamp"; a_args := [t "%Y"] |}; {| a_type := t "varchar"; a_args := [] |}] [t "pk"; t "x"])
  = {| p_name := t "created"; p_filters := [t "datetime %Y"; t "str"]; p_options := [t "pk"; t "x"] |}.
Proof. reflexivity. Qed.

Print Assumptions annotated_column.
Print Assumptions plain_column.
Print Assumptions conversions_applied.
Print Assumptions conversions_many.
Print Assumptions conversion_in_between_refuted.
Print Assumptions conversions_refuted.

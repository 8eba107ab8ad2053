(** C210: the type written behind a pushed column is the type of the numbers it is compared with. *)
From Coq Require Import SpecFloat.
From Verif Require Import Base PyVal Utils_Model Calc_Model Expr_Syntax Expr_Model Expr_Props Inner_Syntax Inner_Model Inner_Spec Inner_Proofs Inner_Props Where_Model Where_Proofs Where_Props.

(** The Python type of a number or truth value. *)
Inductive python_type : val -> text -> Prop :=
| T_int z : python_type (VInt z) (t "int")
| T_float f : python_type (VFloat f) (t "float")
| T_bool b : python_type (VBool b) (t "bool").
(** A condition joined by AND at the top of the clause. *)
Inductive conjunct (x : expr) : expr -> Prop :=
| J_self : conjunct x x
| J_left a b : conjunct x a -> conjunct x (EAnd a b)
| J_right a b : conjunct x b -> conjunct x (EAnd a b)
| J_paren a : conjunct x a -> conjunct x (EParen a).
(** A constant, perhaps in parentheses. *)
Inductive literal (v : val) : expr -> Prop :=
| L_const : literal v (EConst v)
| L_paren a : literal v a -> literal v (EParen a).
Definition comparison (k : text) : Prop := In k [t "eq"; t "neq"; t "gt"; t "gte"; t "lt"; t "lte"].

Section Clause.
Variable primary : text -> bool.           (* columns of the table read *)
Variable field : text -> text.             (* the field a column names *)
(** The clause compares the field [k] with the constant [v]. *)
Definition compared (e : expr) (k : text) (v : val) : Prop :=
  exists op n x, comparison op /\ primary n = true /\ field n = k /\ literal v x /\ (conjunct (EBin op (ECol n) x) e \/ conjunct (EBin op x (ECol n)) e).
(** The clause has a condition on the field [k] alone. *)
Definition restricted (e : expr) (k : text) : Prop :=
  exists n, primary n = true /\ field n = k /\
    ((exists op x, comparison op /\ (forall m, ~ part (ECol m) x) /\ (conjunct (EBin op (ECol n) x) e \/ conjunct (EBin op x (ECol n)) e)) \/
     exists l, conjunct (EIn (ECol n) l) e).
(** The numbers compared with the field [k] are all of the type [ty], and there is one. *)
Definition numbers_are (e : expr) (k ty : text) : Prop :=
  (exists v, compared e k v /\ python_type v ty) /\ forall v ty', compared e k v -> python_type v ty' -> ty' = ty.
End Clause.

(** [v] is a constant written in a condition of the column other than IN. *)
Definition written_constant (c : colq) (v : val) : Prop := exists op, In (op, PV (QConst v)) (all_ops c) /\ op <> t "in".
(** All numbers the column is compared with are of the type [ty], and there is one. *)
Definition all_of_type (c : colq) (ty : text) : Prop :=
  (exists v, written_constant c v /\ python_type v ty) /\ forall v ty', written_constant c v -> python_type v ty' -> ty' = ty.

Lemma value_type_spec : forall op v ty, value_type op v = Some ty <-> exists c, v = PV (QConst c) /\ op <> t "in" /\ python_type c ty.
Proof.
  intros op v ty. unfold value_type. split.
  - intros H. destruct v as [q|l]; [|discriminate H]. destruct q as [|c| | | | | | |]; try discriminate H. destruct (text_eqb op (t "in")) eqn:E; [discriminate H|].
    exists c. split; [reflexivity|]. split; [apply text_eqb_neq; exact E|]. destruct c; cbn in H; try discriminate H; injection H as <-; constructor.
  - intros (c & -> & N & P). apply text_eqb_neq in N. rewrite N. destruct P; reflexivity.
Qed.
Lemma common_type_spec : forall l cur,
  match common_type l cur with
  | Some (Some ty) => (cur = Some ty \/ (cur = None /\ exists op v, In (op, v) l /\ value_type op v = Some ty)) /\ forall op v ty', In (op, v) l -> value_type op v = Some ty' -> ty' = ty
  | Some None => cur = None /\ forall op v, In (op, v) l -> value_type op v = None
  | None => exists op v ty ty', In (op, v) l /\ value_type op v = Some ty /\ ty <> ty' /\ (cur = Some ty' \/ exists op' v', In (op', v') l /\ value_type op' v' = Some ty')
  end.
Proof.
  induction l as [|[op v] l IH]; intros cur; cbn [common_type].
  - destruct cur as [ty|]; [split; [left; reflexivity|intros ? ? ? []]|split; [reflexivity|intros ? ? []]].
  - destruct (value_type op v) as [ty|] eqn:V.
    + destruct cur as [c|].
      * destruct (text_eqb c ty) eqn:E.
        -- apply text_eqb_spec in E. subst c. specialize (IH (Some ty)). destruct (common_type l (Some ty)) as [[ty0|]|].
           ++ destruct IH as [[H|[H _]] A]; [|discriminate H]. injection H as <-. split; [left; reflexivity|]. intros op' v' ty' [I|I] W; [injection I as <- <-; congruence|eapply A; eassumption].
           ++ destruct IH as [H _]. discriminate H.
           ++ destruct IH as (op1 & v1 & t1 & t2 & I & W & N & [H|(op' & v' & I' & W')]).
              ** injection H as <-. exists op1, v1, t1, ty. split; [right; exact I|]. split; [exact W|]. split; [exact N|]. left. reflexivity.
              ** exists op1, v1, t1, t2. split; [right; exact I|]. split; [exact W|]. split; [exact N|]. right. exists op', v'. split; [right; exact I'|exact W'].
        -- apply text_eqb_neq in E. exists op, v, ty, c. split; [left; reflexivity|]. split; [exact V|]. split; [congruence|]. left. reflexivity.
      * specialize (IH (Some ty)). destruct (common_type l (Some ty)) as [[ty0|]|].
        -- destruct IH as [[H|[H _]] A]; [|discriminate H]. injection H as <-. split; [right; split; [reflexivity|exists op, v; split; [left; reflexivity|exact V]]|].
           intros op' v' ty' [I|I] W; [injection I as <- <-; congruence|eapply A; eassumption].
        -- destruct IH as [H _]. discriminate H.
        -- destruct IH as (op1 & v1 & t1 & t2 & I & W & N & [H|(op' & v' & I' & W')]).
           ++ injection H as <-. exists op1, v1, t1, ty. split; [right; exact I|]. split; [exact W|]. split; [exact N|]. right. exists op, v. split; [left; reflexivity|exact V].
           ++ exists op1, v1, t1, t2. split; [right; exact I|]. split; [exact W|]. split; [exact N|]. right. exists op', v'. split; [right; exact I'|exact W'].
    + specialize (IH cur). destruct (common_type l cur) as [[ty0|]|].
      * destruct IH as [[H|[H (op' & v' & I & W)]] A]; (split; [|intros o w ty' [I'|I'] W'; [injection I' as <- <-; congruence|eapply A; eassumption]]).
        -- left. exact H.
        -- right. split; [exact H|]. exists op', v'. split; [right; exact I|exact W].
      * destruct IH as [H A]. split; [exact H|]. intros o w [I|I]; [injection I as <- <-; exact V|eapply A; exact I].
      * destruct IH as (op1 & v1 & t1 & t2 & I & W & N & D). exists op1, v1, t1, t2. split; [right; exact I|]. split; [exact W|]. split; [exact N|].
        destruct D as [D|(op' & v' & I' & W')]; [left; exact D|right]. exists op', v'. split; [right; exact I'|exact W'].
Qed.
Lemma of_type_iff : forall c ty, common_type (all_ops c) None = Some (Some ty) <-> all_of_type c ty.
Proof.
  intros c ty. pose proof (common_type_spec (all_ops c) None) as H. split.
  - intros E. rewrite E in H. destruct H as [[H|(_ & op & v & I & W)] A]; [discriminate H|]. split.
    + apply value_type_spec in W as (x & -> & N & P). exists x. split; [exists op; split; assumption|exact P].
    + intros v' ty' (op' & I' & N') P. apply (A op' (PV (QConst v')) ty' I'). apply value_type_spec. exists v'. auto.
  - intros [(v & (op & I & N) & P) A]. assert (W : value_type op (PV (QConst v)) = Some ty) by (apply value_type_spec; exists v; auto).
    assert (U : forall o w ty', In (o, w) (all_ops c) -> value_type o w = Some ty' -> ty' = ty).
    { intros o w ty' J V. apply value_type_spec in V as (x & -> & No & Px). apply (A x); [exists o; split; assumption|exact Px]. }
    destruct (common_type (all_ops c) None) as [[ty0|]|].
    + destruct H as [_ B]. rewrite (B _ _ _ I W). reflexivity.
    + destruct H as [_ B]. rewrite (B _ _ I) in W. discriminate W.
    + destruct H as (o & w & t1 & t2 & J & V & D & [K|(o' & w' & J' & V')]); [discriminate K|]. rewrite (U _ _ _ J V), (U _ _ _ J' V') in D. congruence.
Qed.


(** ** What is pushed *)
Definition contents (q : querys) (k op : text) (v : pvalue) : Prop := exists c, In (k, c) q /\ In (op, v) (all_ops c).
Lemma put_first_in : forall l op v x, In x (concat (put_first l op v)) <-> x = (op, v) \/ In x (concat l).
Proof.
  induction l as [|d l IH]; intros op v x; cbn [put_first concat].
  - cbn. intuition congruence.
  - destruct (has_op d op); cbn [concat]; rewrite !in_app_iff; [rewrite IH; tauto|]. cbn [In]. intuition congruence.
Qed.
Lemma build_query_contents : forall q key op v, NoDup (map fst q) -> forall k o w,
  contents (build_query q key op v) k o w <-> (k = key /\ o = op /\ w = v) \/ contents q k o w.
Proof.
  intros q key op v ND k o w.
  assert (Q : forall c', (forall x, In x (all_ops c') <-> x = (op, v) \/ exists c, assoc key q = Some c /\ In x (all_ops c)) ->
    (contents (qset q key c') k o w <-> (k = key /\ o = op /\ w = v) \/ contents q k o w)).
  { intros c' H. unfold contents. split.
    - intros (c & I & J). apply qset_in in I; [|exact ND]. destruct I as [[-> ->]|[N I]].
      + apply H in J. destruct J as [J|(c0 & A & J)]; [left; injection J as -> ->; auto|]. right. exists c0. split; [apply assoc_in; assumption|exact J].
      + right. exists c. auto.
    - intros [(-> & -> & ->)|(c & I & J)].
      + exists c'. split; [apply qset_in; auto|]. apply H. left. reflexivity.
      + destruct (text_eq_dec k key) as [->|N].
        * exists c'. split; [apply qset_in; auto|]. apply H. right. exists c. split; [apply assoc_in; assumption|exact J].
        * exists c. split; [apply qset_in; auto|exact J]. }
  unfold build_query. destruct (assoc key q) as [[d|l]|] eqn:A.
  - destruct (has_op d op); apply Q; intros x; cbn [all_ops]; rewrite ?put_first_in.
    + cbn [concat]. rewrite app_nil_r. split; [intros [->|I]; [auto|right; exists (QOne d); auto]|]. intros [->|(c & E & I)]; [auto|]. injection E as <-. auto.
    + rewrite in_app_iff. cbn [In]. split; [intros [I|[<-|[]]]; [right; exists (QOne d); auto|auto]|]. intros [->|(c & E & I)]; [auto|]. injection E as <-. auto.
  - apply Q. intros x. cbn [all_ops]. rewrite put_first_in. split; [intros [->|I]; [auto|right; exists (QMany l); auto]|]. intros [->|(c & E & I)]; [auto|]. injection E as <-. auto.
  - apply Q. intros x. cbn [all_ops In]. split; [intros [<-|[]]; auto|]. intros [->|(c & E & I)]; [auto|discriminate E].
Qed.

Section Pushed.
Variable compile : expr -> valuer.
Variable primary : text -> bool.
Variable typing_name : text -> text.
(** The condition a leaf pushes. *)
Definition leaf (x : expr) : option (text * text * pvalue) :=
  match x with
  | EBin k a b => match push_op k with Some op => match parse_binary compile primary a b with Some (n, v) => Some (typing_name n, op, v) | None => None end | None => None end
  | EIn a l => match parse_in compile primary a l with Some (n, v) => Some (typing_name n, t "in", v) | None => None end
  | _ => None
  end.
Definition pushed (e : expr) (k op : text) (v : pvalue) : Prop := exists x, conjunct x e /\ leaf x = Some (k, op, v).
Lemma pushed_and : forall a b k op v, pushed (EAnd a b) k op v <-> pushed a k op v \/ pushed b k op v.
Proof.
  intros a b k op v. unfold pushed. split.
  - intros (x & C & L). inversion C; subst; [discriminate L|left|right]; exists x; auto.
  - intros [(x & C & L)|(x & C & L)]; exists x; (split; [|exact L]); [apply J_left|apply J_right]; exact C.
Qed.
Lemma pushed_paren : forall a k op v, pushed (EParen a) k op v <-> pushed a k op v.
Proof.
  intros a k op v. unfold pushed. split.
  - intros (x & C & L). inversion C; subst; [discriminate L|]. exists x; auto.
  - intros (x & C & L). exists x. split; [apply J_paren; exact C|exact L].
Qed.
Lemma pushed_leaf : forall e, (forall a b, e <> EAnd a b) -> (forall a, e <> EParen a) -> forall k op v, pushed e k op v <-> leaf e = Some (k, op, v).
Proof.
  intros e NA NP k op v. split; [intros (x & C & L)|intros L; exists e; split; [apply J_self|exact L]].
  inversion C; subst; [exact L| | |]; exfalso; [eapply NA|eapply NA|eapply NP]; reflexivity.
Qed.
Lemma where_contents : forall e q, NoDup (map fst q) ->
  let q' := snd (where_cond compile primary typing_name e q) in
  NoDup (map fst q') /\ (forall k op v, contents q' k op v <-> contents q k op v \/ pushed e k op v) /\
  (forall k, In k (map fst q') <-> In k (map fst q) \/ exists op v, pushed e k op v).
Proof.
  assert (L : forall e q, NoDup (map fst q) -> (forall a b, e <> EAnd a b) -> (forall a, e <> EParen a) ->
    snd (where_cond compile primary typing_name e q) = match leaf e with Some (k, op, v) => build_query q k op v | None => q end ->
    let q' := snd (where_cond compile primary typing_name e q) in
    NoDup (map fst q') /\ (forall k op v, contents q' k op v <-> contents q k op v \/ pushed e k op v) /\
    (forall k, In k (map fst q') <-> In k (map fst q) \/ exists op v, pushed e k op v)).
  { intros e q ND NA NP E q'. unfold q'. rewrite E. destruct (leaf e) as [[[k0 op0] v0]|] eqn:Lf.
    - split; [apply build_query_nodup; exact ND|]. split.
      + intros k op v. rewrite build_query_contents by exact ND. rewrite (pushed_leaf e NA NP), Lf. split; [intros [(-> & -> & ->)|H]; auto|].
        intros [H|H]; [auto|]. injection H as <- <- <-. auto.
      + intros k. rewrite build_query_keys. split; [intros [->|H]; [right; exists op0, v0; apply (pushed_leaf e NA NP); exact Lf|auto]|].
        intros [H|(op & v & H)]; [auto|]. apply (pushed_leaf e NA NP) in H. rewrite Lf in H. injection H as <- _ _. auto.
    - split; [exact ND|]. split.
      + intros k op v. rewrite (pushed_leaf e NA NP), Lf. split; [auto|]. intros [H|H]; [exact H|discriminate H].
      + intros k. split; [auto|]. intros [H|(op & v & H)]; [exact H|]. apply (pushed_leaf e NA NP) in H. rewrite Lf in H. discriminate H. }
  induction e; intros q ND; try (apply L; [exact ND|discriminate|discriminate|reflexivity]).
  - (* paren *) specialize (IHe q ND). cbn [where_cond]. destruct (where_cond compile primary typing_name e q) as [[m r] q1]. cbn [snd] in *.
    destruct IHe as (D & C & K). split; [exact D|]. split; [intros k op v; rewrite C, pushed_paren; reflexivity|].
    intros k. rewrite K. split; (intros [H|(op & v & H)]; [auto|right; exists op, v; apply pushed_paren; exact H]).
  - (* and *) specialize (IHe1 q ND). cbn [where_cond]. destruct (where_cond compile primary typing_name e1 q) as [[ma ra] q1]. cbn [snd] in *.
    destruct IHe1 as (D1 & C1 & K1). specialize (IHe2 q1 D1). destruct (where_cond compile primary typing_name e2 q1) as [[mb rb] q2]. cbn [snd] in *.
    destruct IHe2 as (D2 & C2 & K2). split; [exact D2|]. split; [intros k op v; rewrite C2, C1, pushed_and; tauto|].
    intros k. rewrite K2, K1. split.
    + intros [[H|(op & v & H)]|(op & v & H)]; [auto| |]; right; exists op, v; apply pushed_and; auto.
    + intros [H|(op & v & H)]; [auto|]. apply pushed_and in H. destruct H as [H|H]; [left; right|right]; exists op, v; exact H.
  - (* comparison *) apply L; [exact ND|discriminate|discriminate|]. cbn [where_cond leaf]. destruct (push_op key); [|reflexivity]. destruct (parse_binary compile primary e1 e2) as [[n v]|]; reflexivity.
  - (* IN *) apply L; [exact ND|discriminate|discriminate|]. cbn [where_cond leaf]. destruct (parse_in compile primary e l) as [[n v]|]; reflexivity.
Qed.
End Pushed.

(** ** The renamed keys *)
Lemma retype_exact : forall ks q, NoDup ks -> NoDup (map fst q) -> (forall k, In k (map fst q) -> has_bar k = false) -> (forall k, In k ks -> has_bar k = false) ->
  NoDup (map fst (fold_left retype_key ks q)) /\
  forall k c, In (k, c) (fold_left retype_key ks q) <->
    (In (k, c) q /\ (In k ks -> forall ty, ~ all_of_type c ty)) \/ exists n ty, k = n ++ t "|" ++ ty /\ In n ks /\ In (n, c) q /\ all_of_type c ty.
Proof.
  intros ks q Dk D B. induction ks as [|k0 ks IH] using rev_ind; intros Bk.
  - cbn [fold_left]. split; [exact D|]. intros k c. split; [intros I; left; split; [exact I|intros []]|]. intros [[I _]|(n & ty & _ & [] & _)]. exact I.
  - rewrite fold_left_app. cbn [fold_left]. apply NoDup_remove in Dk as [Dk Nk]. rewrite app_nil_r in Dk, Nk.
    destruct (IH Dk) as (D' & C). { intros k I. apply Bk. apply in_or_app. left. exact I. }
    set (q' := fold_left retype_key ks q) in *. clearbody q'.
    assert (B0 : has_bar k0 = false) by (apply Bk; apply in_or_app; right; left; reflexivity).
    assert (Same : forall c, In (k0, c) q' <-> In (k0, c) q).
    { intros c. rewrite C. split; [|intros I; left; split; [exact I|intros J; contradiction]]. intros [[I _]|(n & ty & E & _)]; [exact I|].
      exfalso. rewrite E, has_bar_typed in B0. discriminate B0. }
    assert (Uniq : forall c c', In (k0, c) q -> In (k0, c') q -> c = c').
    { intros c c' I J. apply assoc_in in I; [|exact D]. apply assoc_in in J; [|exact D]. congruence. }
    assert (Neq : forall n ty, n ++ t "|" ++ ty <> k0) by (intros n ty E; rewrite <- E, has_bar_typed in B0; discriminate B0).
    assert (Stay : (forall c ty, In (k0, c) q -> ~ all_of_type c ty) -> forall k c,
      (In (k, c) q' <-> (In (k, c) q /\ (In k (ks ++ [k0]) -> forall ty, ~ all_of_type c ty)) \/ exists n ty, k = n ++ t "|" ++ ty /\ In n (ks ++ [k0]) /\ In (n, c) q /\ all_of_type c ty)).
    { intros No k c. rewrite C. split.
      - intros [[I H]|(n & ty & E & I & J & A)]; [left; split; [exact I|]|right; exists n, ty; split; [exact E|]; split; [apply in_or_app; left; exact I|auto]].
        intros K. apply in_app_or in K. destruct K as [K|[<-|[]]]; [exact (H K)|]. intros ty. exact (No c ty I).
      - intros [[I H]|(n & ty & E & I & J & A)]; [left; split; [exact I|intros K; apply H; apply in_or_app; left; exact K]|].
        apply in_app_or in I. destruct I as [I|[<-|[]]]; [right; exists n, ty; auto|]. destruct (No c ty J A). }
    unfold retype_key. rewrite B0. destruct (assoc k0 q') as [c0|] eqn:A0.
    + apply assoc_in in A0; [|exact D']. apply Same in A0. destruct (common_type (all_ops c0) None) as [[ty0|]|] eqn:T0.
      * apply of_type_iff in T0. split; [apply qdel_nodup, qset_nodup, D'|]. intros k c. rewrite qdel_in, (qset_in q' _ _ _ _ D'). split.
        -- intros [N [[-> ->]|[N' I]]].
           ++ right. exists k0, ty0. split; [reflexivity|]. split; [apply in_or_app; right; left; reflexivity|]. auto.
           ++ apply C in I. destruct I as [[I H]|(n & ty & E & I & J & A)].
              ** left. split; [exact I|]. intros K. apply in_app_or in K. destruct K as [K|[K|[]]]; [exact (H K)|congruence].
              ** right. exists n, ty. split; [exact E|]. split; [apply in_or_app; left; exact I|]. auto.
        -- intros [[I H]|(n & ty & E & I & J & A)].
           ++ assert (k <> k0). { intros ->. rewrite (Uniq _ _ I A0) in H. refine (H _ ty0 T0). apply in_or_app. right. left. reflexivity. }
              split; [assumption|]. right. split.
              ** intros ->. apply in_map with (f := fst) in I. apply B in I. cbn [fst] in I. rewrite has_bar_typed in I. discriminate I.
              ** apply C. left. split; [exact I|]. intros K. apply H. apply in_or_app. left. exact K.
           ++ subst k. split; [apply Neq|]. apply in_app_or in I. destruct I as [I|[<-|[]]].
              ** right. split; [|apply C; right; exists n, ty; auto]. intros E. assert (n = k0).
                 { rewrite <- (base_bar n ty), <- (base_bar k0 ty0); [rewrite E; reflexivity|exact B0|]. apply Bk. apply in_or_app. left. exact I. }
                 subst n. contradiction.
              ** left. rewrite (Uniq _ _ J A0) in *. assert (ty = ty0) as ->; [|auto]. destruct A as [(v & W & P) _]. destruct T0 as [_ U]. exact (U v ty W P).
      * split; [exact D'|]. apply Stay. intros c ty I A. rewrite (Uniq _ _ I A0) in A. apply of_type_iff in A. congruence.
      * split; [exact D'|]. apply Stay. intros c ty I A. rewrite (Uniq _ _ I A0) in A. apply of_type_iff in A. congruence.
    + split; [exact D'|]. apply Stay. intros c ty I _. apply Same in I. apply assoc_in in I; [|exact D']. congruence.
Qed.

Open Scope nat_scope.
(** ** The written clause *)
Lemma has_column_kids : forall e, has_column e = true <-> (exists m, e = ECol m) \/ exists i c, In (i, c) (kids e) /\ has_column c = true.
Proof.
  assert (M : forall l (h : nat -> nat), existsb has_column l = true <-> exists i c, In (i, c) (mapi (fun i x => (h i, x)) 0 l) /\ has_column c = true).
  { intros l h. rewrite existsb_exists. split.
    - intros (x & I & H). apply In_nth_error in I as (j & E). exists (h j), x. split; [apply in_mapi; exists j, x; auto|exact H].
    - intros (i & c & I & H). apply in_mapi in I as (j & x & E & I). injection I as -> ->. exists x. split; [eapply nth_error_In; exact E|exact H]. }
  assert (M1 : forall a l, has_column a || existsb has_column l = true <-> exists i c, In (i, c) ((0, a) :: mapi (fun i x => (S i, x)) 0 l) /\ has_column c = true).
  { intros a l. rewrite orb_true_iff, (M l S). split.
    - intros [H|(i & c & I & H)]; [exists 0, a; split; [left; reflexivity|exact H]|exists i, c; split; [right; exact I|exact H]].
    - intros (i & c & [I|I] & H); [injection I as <- <-; left; exact H|right; exists i, c; auto]. }
  assert (F : forall e, (forall m, e <> ECol m) -> (has_column e = true <-> exists i c, In (i, c) (kids e) /\ has_column c = true) -> (has_column e = true <-> (exists m, e = ECol m) \/ exists i c, In (i, c) (kids e) /\ has_column c = true)).
  { intros e N H. rewrite H. split; [auto|]. intros [(m & E)|K]; [destruct (N m E)|exact K]. }

  intros e. destruct e as [v|n|a|a|a|a b|a b|a b|k a b|a l|a lo hi|a b f|a b|a l|o ifs els|k l]; try (apply F; [discriminate|]); cbn [has_column kids].
  - split; [discriminate|]. intros (i & c & [] & _).
  - split; [left; exists n; reflexivity|reflexivity].
  - split; [intros H; exists 0, a; split; [left; reflexivity|exact H]|intros (i & c & [I|[]] & H); injection I as <- <-; exact H].
  - split; [intros H; exists 0, a; split; [left; reflexivity|exact H]|intros (i & c & [I|[]] & H); injection I as <- <-; exact H].
  - split; [intros H; exists 0, a; split; [left; reflexivity|exact H]|intros (i & c & [I|[]] & H); injection I as <- <-; exact H].
  - rewrite orb_true_iff; split; [intros [H|H]; [exists 0, a|exists 1, b]; (split; [cbn; tauto|exact H])|intros (i & c & [I|[I|[]]] & H); injection I as <- <-; auto].
  - rewrite orb_true_iff; split; [intros [H|H]; [exists 0, a|exists 1, b]; (split; [cbn; tauto|exact H])|intros (i & c & [I|[I|[]]] & H); injection I as <- <-; auto].
  - rewrite orb_true_iff; split; [intros [H|H]; [exists 0, a|exists 1, b]; (split; [cbn; tauto|exact H])|intros (i & c & [I|[I|[]]] & H); injection I as <- <-; auto].
  - rewrite orb_true_iff; split; [intros [H|H]; [exists 0, a|exists 1, b]; (split; [cbn; tauto|exact H])|intros (i & c & [I|[I|[]]] & H); injection I as <- <-; auto].
  - apply M1.
  - rewrite !orb_true_iff. split; [intros [[H|H]|H]; [exists 0, a|exists 1, lo|exists 2, hi]; (split; [cbn; tauto|exact H])|intros (i & c & [I|[I|[I|[]]]] & H); injection I as <- <-; auto].
  - rewrite !orb_true_iff. destruct f as [f|].
    + split; [intros [[H|H]|H]; [exists 0, a|exists 1, b|exists 2, f]; (split; [cbn; tauto|exact H])|intros (i & c & I & H); cbn in I; destruct I as [I|[I|[I|[]]]]; injection I as <- <-; auto].
    + split; [intros [[H|H]|H]; [exists 0, a|exists 1, b|discriminate H]; (split; [cbn; tauto|exact H])|intros (i & c & I & H); cbn in I; destruct I as [I|[I|[]]]; injection I as <- <-; auto].
  - rewrite orb_true_iff; split; [intros [H|H]; [exists 0, a|exists 1, b]; (split; [cbn; tauto|exact H])|intros (i & c & [I|[I|[]]] & H); injection I as <- <-; auto].
  - apply M1.
  - rewrite !orb_true_iff, existsb_exists. split.
    + intros [[H|([w y] & I & H)]|H].
      * destruct o as [x|]; [|discriminate H]. exists 0, x. split; [left; reflexivity|exact H].
      * apply In_nth_error in I as (j & E). cbn [fst snd] in H. apply orb_true_iff in H. destruct H as [H|H]; [exists (S (S (2 * j))), w|exists (S (S (S (2 * j)))), y]; (split; [|exact H]);
          rewrite !in_app_iff; right; left; apply in_concati; exists j, (w, y); (split; [exact E|cbn; auto]).
      * destruct els as [x|]; [|discriminate H]. exists 1, x. split; [|exact H]. rewrite !in_app_iff. right. right. left. reflexivity.
    + intros (i & c & I & H). rewrite !in_app_iff in I. destruct I as [I|[I|I]].
      * destruct o as [x|]; [|destruct I]. destruct I as [I|[]]. injection I as <- <-. auto.
      * apply in_concati in I as (j & [w y] & E & I). left. right. exists (w, y). split; [eapply nth_error_In; exact E|]. cbn [fst snd] in *. rewrite orb_true_iff.
        destruct I as [I|[I|[]]]; injection I as _ <-; auto.
      * destruct els as [x|]; [|destruct I]. destruct I as [I|[]]. injection I as <- <-. auto.
  - apply (M l (fun i => i)).
Qed.
Lemma has_column_part : forall e, has_column e = true <-> exists m, part (ECol m) e.
Proof.
  induction e as [e IH] using kid_induction. rewrite has_column_kids. split.
  - intros [(m & ->)|(i & c & I & H)]; [exists m; apply P_self|]. apply (IH i c I) in H as (m & P). exists m. eapply part_kid; eassumption.
  - intros (m & P). apply part_inv in P. destruct P as [<-|(i & c & I & P)]; [left; exists m; reflexivity|right]. exists i, c. split; [exact I|]. apply (IH i c I). exists m. exact P.
Qed.
Lemma no_column : forall e, has_column e = false <-> forall m, ~ part (ECol m) e.
Proof.
  intros e. split.
  - intros H m P. assert (has_column e = true) by (apply has_column_part; exists m; exact P). congruence.
  - intros H. destruct (has_column e) eqn:E; [|reflexivity]. apply has_column_part in E as (m & P). destruct (H m P).
Qed.
Lemma compile_const : forall frepr ident ext x v, compile frepr ident ext x = QConst v -> literal v x \/ exists els, part (ECase None [] els) x.
Proof.
  intros frepr ident ext. induction x as [x IH] using kid_induction. intros v H. destruct x; cbn [compile] in H; try discriminate H.
  - injection H as ->. left. constructor.
  - destruct (IH 0%nat x (or_introl eq_refl) v H) as [L|(els & P)]; [left; constructor; exact L|right]. exists els. apply P_paren. exact P.
  - destruct x; discriminate H.
  - unfold func_column in H. destruct (is_mysql_func _) in H; discriminate H.
  - destruct this as [a|]; [destruct (forallb _ ifs) eqn:F; [discriminate H|]|].
    + destruct ifs as [|[w y] ifs]; [discriminate F|]. discriminate H.
    + destruct ifs as [|[w y] ifs]; [|discriminate H]. right. exists els. apply P_self.
  - unfold func_column in H. destruct (is_mysql_func _) in H; discriminate H.
Qed.
Lemma compile_literal : forall frepr ident ext x v, literal v x -> compile frepr ident ext x = QConst v.
Proof. intros frepr ident ext x v L. induction L; [reflexivity|assumption]. Qed.
Lemma literal_closed : forall x v, literal v x -> has_column x = false.
Proof. intros x v L. induction L; [reflexivity|assumption]. Qed.
Lemma conjunct_part : forall x e, conjunct x e -> part x e.
Proof. intros x e C. induction C; [apply P_self|apply P_and; left; assumption|apply P_and; right; assumption|apply P_paren; assumption]. Qed.
Lemma part_trans : forall x y e, part x y -> part y e -> part x e.
Proof. intros x y. induction e as [e IH] using kid_induction. intros P Q. apply part_inv in Q. destruct Q as [->|(i & c & I & Q)]; [exact P|]. eapply part_kid; [exact I|]. eapply IH; eassumption. Qed.
Lemma push_op_is : forall k, (exists op, push_op k = Some op) <-> comparison k.
Proof.
  intros k. unfold comparison, push_op. split.
  - intros (op & H). cbn [In]. repeat (match type of H with (if text_eqb k ?x then _ else _) = _ => destruct (text_eqb k x) eqn:E; [apply text_eqb_spec in E; subst k; tauto|clear E] end). discriminate H.
  - intros H. cbn [In] in H. repeat (destruct H as [<-|H]; [eexists; reflexivity|]). destruct H.
Qed.
Lemma push_op_not_in : forall k op, push_op k = Some op -> op <> t "in".
Proof. intros k op H. apply push_op_sql in H. destruct H as (_ & _ & H). apply text_eqb_neq. exact H. Qed.

Section Written.
Variable frepr : spec_float -> text.
Variable ident : val -> val -> bool.
Variable ext : text -> option (list val -> val).
Variable primary : text -> bool.
Variable field : text -> text.
Hypothesis plain : forall n, primary n = true -> has_bar (field n) = false.
Variable e : expr.
Hypothesis branches : forall els, ~ part (ECase None [] els) e.
Notation pushed := (pushed (compile frepr ident ext) primary field e).

Lemma pushed_compared : forall k v, (exists op, pushed k op (PV (QConst v)) /\ op <> t "in") <-> compared primary field e k v.
Proof.
  intros k v. split.
  - intros (op & (x & C & L) & N).
    assert (D : forall y, part y x -> compile frepr ident ext y = QConst v -> literal v y).
    { intros y P E. destruct (compile_const _ _ _ _ _ E) as [H|(els & Q)]; [exact H|]. destruct (branches els). eapply part_trans; [exact Q|]. eapply part_trans; [exact P|]. apply conjunct_part, C. }
    destruct x as [w|n|a|a|a|a b|a b|a b|key a b|a l|a lo hi|a b f|a b|a l|o ifs els|key l]; try discriminate L; cbn [leaf] in L.
    + destruct (push_op key) as [o|] eqn:O; [|discriminate L]. destruct (parse_binary (compile frepr ident ext) primary a b) as [[n pv]|] eqn:PB; [|discriminate L].
      injection L as <- -> ->. unfold parse_binary in PB.
      assert (K : comparison key) by (apply push_op_is; exists op; exact O).
      destruct a as [| m | | | | | | | | | | | | | |].
      2: { destruct (primary m) eqn:Pm; [|discriminate PB]. destruct (has_column b); [discriminate PB|]. injection PB as -> E.
           exists key, n, b. split; [exact K|]. split; [exact Pm|]. split; [reflexivity|]. split; [apply D; [apply P_bin; right; apply P_self|exact E]|left; exact C]. }
      all: destruct b as [| m | | | | | | | | | | | | | |]; try discriminate PB; destruct (primary m) eqn:Pm; [|discriminate PB]; destruct (has_column _) in PB; [discriminate PB|]; injection PB as -> E;
        eexists key, n, _; (split; [exact K|]; split; [exact Pm|]; split; [reflexivity|]; split; [apply D; [apply P_bin; left; apply P_self|first [exact E|rewrite E; reflexivity]]|right; exact C]).
    + unfold parse_in in L. destruct a as [| m | | | | | | | | | | | | | |]; try discriminate L. destruct (primary m); discriminate L.
  - intros (key & n & x & K & Pn & <- & Lx & C). apply push_op_is in K as (op & O). exists op. split; [|eapply push_op_not_in; exact O].
    pose proof (literal_closed x v Lx) as H. pose proof (compile_literal frepr ident ext x v Lx) as E. destruct C as [C|C].
    + exists (EBin key (ECol n) x). split; [exact C|]. cbn [leaf]. rewrite O. unfold parse_binary. rewrite Pn, H, E. reflexivity.
    + exists (EBin key x (ECol n)). split; [exact C|]. cbn [leaf]. rewrite O. unfold parse_binary. rewrite Pn, H, E. destruct Lx; first [reflexivity|rewrite E; reflexivity].
Qed.
Lemma pushed_restricted : forall k, (exists op v, pushed k op v) <-> restricted primary field e k.
Proof.
  intros k. split.
  - intros (op & v & x & C & L).
    destruct x as [w|n|a|a|a|a b|a b|a b|key a b|a l|a lo hi|a b f|a b|a l|o ifs els|key l]; try discriminate L; cbn [leaf] in L.
    + destruct (push_op key) as [o|] eqn:O; [|discriminate L]. destruct (parse_binary (compile frepr ident ext) primary a b) as [[n pv]|] eqn:PB; [|discriminate L].
      injection L as <- -> ->. unfold parse_binary in PB.
      assert (K : comparison key) by (apply push_op_is; exists op; exact O).
      destruct a as [| m | | | | | | | | | | | | | |].
      2: { destruct (primary m) eqn:Pm; [|discriminate PB]. destruct (has_column b) eqn:HC; [discriminate PB|]. injection PB as -> E.
           exists n. split; [exact Pm|]. split; [reflexivity|]. left. exists key, b. split; [exact K|]. split; [apply no_column; exact HC|left; exact C]. }
      all: destruct b as [| m | | | | | | | | | | | | | |]; try discriminate PB; destruct (primary m) eqn:Pm; [|discriminate PB];
        match type of PB with (if has_column ?x then _ else _) = _ => destruct (has_column x) eqn:HC; [discriminate PB|]; injection PB as -> E;
        exists n; (split; [exact Pm|]; split; [reflexivity|]; left; exists key, x; split; [exact K|]; split; [apply no_column; exact HC|right; exact C]) end.
    + unfold parse_in in L. destruct a as [| m | | | | | | | | | | | | | |]; try discriminate L. destruct (primary m) eqn:Pm; [|discriminate L]. injection L as <- <- <-.
      exists m. split; [exact Pm|]. split; [reflexivity|]. right. exists l. exact C.
  - intros (n & Pn & <- & [(key & x & K & NC & C)|(l & C)]).
    + apply push_op_is in K as (op & O). apply no_column in NC. exists op, (PV (compile frepr ident ext x)). destruct C as [C|C].
      * exists (EBin key (ECol n) x). split; [exact C|]. cbn [leaf]. rewrite O. unfold parse_binary. rewrite Pn, NC. reflexivity.
      * exists (EBin key x (ECol n)). split; [exact C|]. cbn [leaf]. rewrite O. unfold parse_binary. rewrite Pn. destruct x; try discriminate NC; rewrite NC; reflexivity.
    + exists (t "in"), (PL (map (compile frepr ident ext) l)). exists (EIn (ECol n) l). split; [exact C|]. cbn [leaf]. unfold parse_in. rewrite Pn. reflexivity.
Qed.
Lemma restricted_plain : forall k, restricted primary field e k -> has_bar k = false.
Proof. intros k (n & Pn & <- & _). apply plain. exact Pn. Qed.
End Written.

(** C210.  The fields with a pushed condition appear under their names; exactly those which are compared with numbers of one type only carry that type. *)
Theorem pushed_types : forall frepr ident ext primary field e, (forall n, primary n = true -> has_bar (field n) = false) -> (forall els, ~ part (ECase None [] els) e) ->
  forall key, In key (map fst (fst (compile_where (compile frepr ident ext) primary field e))) <->
    (restricted primary field e key /\ forall ty, ~ numbers_are primary field e key ty) \/
    exists k ty, key = k ++ t "|" ++ ty /\ numbers_are primary field e k ty.
Proof.
  intros frepr ident ext primary field e plain branches key. unfold compile_where.
  pose proof (where_contents (compile frepr ident ext) primary field e [] (NoDup_nil _)) as W. cbn [map] in W.
  destruct (where_cond (compile frepr ident ext) primary field e []) as [[m r] q]. cbn [snd fst] in *. destruct W as (D & C & K).
  assert (CC : forall k c, In (k, c) q -> forall op v, In (op, v) (all_ops c) <-> pushed (compile frepr ident ext) primary field e k op v).
  { intros k c I op v. split.
    - intros J. assert (H : contents q k op v) by (exists c; auto). apply C in H. destruct H as [(c' & [] & _)|H]; exact H.
    - intros H. assert (J : contents q k op v) by (apply C; right; exact H). destruct J as (c' & I' & J). apply assoc_in in I, I'; try exact D. congruence. }
  assert (KK : forall k, In k (map fst q) <-> restricted primary field e k).
  { intros k. rewrite K, <- (pushed_restricted frepr ident ext). split; [intros [[]|H]; exact H|auto]. }
  assert (WC : forall k c, In (k, c) q -> forall v, written_constant c v <-> compared primary field e k v).
  { intros k c I v. rewrite <- (pushed_compared frepr ident ext primary field e branches). unfold written_constant. split; intros (op & H & N); exists op; (split; [|exact N]); apply (CC k c I); exact H. }
  assert (TT : forall k c, In (k, c) q -> forall ty, all_of_type c ty <-> numbers_are primary field e k ty).
  { intros k c I ty. unfold all_of_type, numbers_are. split; intros [(v & H & P) A]; (split; [exists v; split; [apply (WC k c I); exact H|exact P]|]);
      intros v' ty' H'; apply A; apply (WC k c I); exact H'. }
  assert (Plain : forall k, In k (map fst q) -> has_bar k = false) by (intros k I; apply KK in I; eapply restricted_plain; [exact plain|exact I]).
  destruct (retype_exact (map fst q) q D D Plain Plain) as (_ & R). unfold retype. split.
  - intros I. apply in_map_iff in I as ([k c] & <- & I). cbn [fst]. apply R in I. destruct I as [[I N]|(n & ty & -> & _ & I & A)].
    + left. assert (J : In k (map fst q)) by (apply in_map_iff; exists (k, c); auto). split; [apply KK; exact J|]. intros ty A. apply (N J ty). apply (TT k c I). exact A.
    + right. exists n, ty. split; [reflexivity|]. apply (TT n c I). exact A.
  - intros [[H N]|(k & ty & -> & A)].
    + apply KK in H. apply in_map_iff in H as ([k c] & <- & I). cbn [fst] in *. apply in_map_iff. exists (k, c). split; [reflexivity|]. apply R. left. split; [exact I|].
      intros _ ty A. apply (N ty). apply (TT k c I). exact A.
    + assert (H : In k (map fst q)).
      { apply KK. destruct A as [(v & (op & n & x & Kp & Pn & E & L & J) & _) _]. exists n. split; [exact Pn|]. split; [exact E|]. left. exists op, x. split; [exact Kp|]. split; [|exact J].
        apply no_column. eapply literal_closed; exact L. }
      apply in_map_iff in H as ([k' c] & E & I). cbn [fst] in E. subst k'. apply in_map_iff. exists (k ++ t "|" ++ ty, c). split; [reflexivity|]. apply R. right. exists k, ty.
      split; [reflexivity|]. split; [apply in_map_iff; exists (k, c); auto|]. split; [exact I|]. apply (TT k c I). exact A.
Qed.
Print Assumptions pushed_types.

(** a > 1 AND (a <= (5) AND b = 1.5) AND b < 2 AND c > -1: a is compared with integers, b with both kinds, c with no constant. *)
Example clause0 : expr :=
  EAnd (EBin (t "gt") (ECol (t "a")) (EConst (VInt 1)))
       (EAnd (EParen (EAnd (EBin (t "lte") (ECol (t "a")) (EParen (EConst (VInt 5)))) (EBin (t "eq") (ECol (t "b")) (EConst (VFloat (S754_finite false 3 (-1)%Z))))))
             (EAnd (EBin (t "lt") (ECol (t "b")) (EConst (VInt 2))) (EBin (t "gt") (ECol (t "c")) (ENeg (EConst (VInt 1)))))).
Example clause0_keys : map fst (fst (compile_where (compile fr0 id0 no_ext) everything same_name clause0)) = [t "b"; t "c"; t "a|int"].
Proof. reflexivity. Qed.
Example clause0_branches : forall els, ~ part (ECase None [] els) clause0.
Proof. intros els P. unfold clause0 in P. repeat (match goal with H : part _ _ |- _ => inversion H; subst; clear H | H : _ \/ _ |- _ => destruct H end). Qed.

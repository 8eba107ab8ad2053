(** C54: INSERT. *)
From Coq Require Import Lia.
From Verif Require Import Base PyVal Agg_Model Utils_Model Utils_Proofs Json_Proofs Insert_Model Insert_Spec.

(* ---- one tuple ---- *)
Definition or_type (ty : option text) (v : val) : option text := match ty with None => number_type v | Some _ => ty end.
Fixpoint merge (cs : list (text * option text)) (vs : list val) : list (text * option text) :=
  match cs, vs with
  | (n, ty) :: cs, v :: vs => (n, or_type ty v) :: merge cs vs
  | _, _ => cs
  end.
Lemma insert_tuple_merge : forall vs pre cs data,
  insert_tuple (length pre) vs (pre ++ cs) data =
  if (length vs <=? length cs)%nat
  then Ok (pre ++ merge cs vs, fold_left (fun d p => dict_set (fst p) (snd p) d) (combine (map fst cs) vs) data)
  else Err IndexError.
Proof.
  induction vs as [|v vs IH]; intros pre cs data; cbn [insert_tuple].
  - cbn [length Nat.leb]. destruct cs as [|[n ty] cs]; reflexivity.
  - rewrite nth_error_app2, Nat.sub_diag by lia. destruct cs as [|[n ty] cs]; cbn [nth_error length Nat.leb]; [reflexivity|].
    assert (E : firstn (length pre) (pre ++ (n, ty) :: cs) ++ (n, or_type ty v) :: skipn (S (length pre)) (pre ++ (n, ty) :: cs) =
                (pre ++ [(n, or_type ty v)]) ++ cs).
    { rewrite firstn_app, firstn_all, Nat.sub_diag. cbn [firstn]. rewrite app_nil_r.
      rewrite skipn_app, skipn_all2 by lia. replace (S (length pre) - length pre)%nat with 1%nat by lia. cbn [skipn app].
      rewrite <- app_assoc. reflexivity. }
    change (match ty with None => number_type v | Some _ => ty end) with (or_type ty v). rewrite E.
    replace (S (length pre)) with (length (pre ++ [(n, or_type ty v)])) by (rewrite app_length; cbn; lia).
    rewrite IH. cbn [combine map fst snd fold_left merge]. rewrite <- app_assoc. reflexivity.
Qed.
Lemma dict_set_fresh A k (v : A) m : ~ In k (map fst m) -> dict_set k v m = m ++ [(k, v)].
Proof.
  induction m as [|[k' v'] m IH]; cbn [dict_set map fst]; auto. intros H.
  destruct (text_eqb k k') eqn:E; [apply text_eqb_spec in E; subst; destruct H; left; reflexivity|].
  cbn [app]. f_equal. apply IH. intros G. apply H. right. exact G.
Qed.
Lemma fold_dict_set A : forall (l : list (text * A)) d, NoDup (map fst d ++ map fst l) ->
  fold_left (fun d p => dict_set (fst p) (snd p) d) l d = d ++ l.
Proof.
  induction l as [|[k v] l IH]; intros d H; cbn [fold_left]; [symmetry; apply app_nil_r|]. cbn [fst snd map] in *.
  rewrite dict_set_fresh.
  - rewrite IH; rewrite ?map_app; rewrite <- ?app_assoc; [reflexivity|exact H].
  - apply NoDup_remove_2 in H. intros I. apply H. apply in_or_app. left. exact I.
Qed.
Lemma map_fst_combine A : forall (ns : list text) (vs : list A), map fst (combine ns vs) = firstn (length vs) ns.
Proof. induction ns as [|n ns IH]; intros [|v vs]; cbn; try reflexivity. f_equal. apply IH. Qed.
Lemma NoDup_firstn A n : forall l : list A, NoDup l -> NoDup (firstn n l).
Proof.
  induction n as [|n IH]; intros [|x l] H; cbn [firstn]; auto; try constructor.
  - inversion H; subst. intros I. apply H2. rewrite <- (firstn_skipn n l). apply in_or_app. left. exact I.
  - inversion H; auto.
Qed.
Lemma merge_names cs : forall vs, map fst (merge cs vs) = map fst cs.
Proof. induction cs as [|[n ty] cs IH]; intros [|v vs]; cbn; try reflexivity. f_equal. apply IH. Qed.
Lemma merge_length cs : forall vs, length (merge cs vs) = length cs.
Proof. induction cs as [|[n ty] cs IH]; intros [|v vs]; cbn; try reflexivity. f_equal. apply IH. Qed.

(* ---- all tuples ---- *)
Lemma insert_tuples_merge : forall tuples cs, NoDup (map fst cs) -> (forall tp, In tp tuples -> (length tp <= length cs)%nat) ->
  insert_tuples tuples cs = Ok (fold_left merge tuples cs, map (combine (map fst cs)) tuples).
Proof.
  induction tuples as [|tp tuples IH]; intros cs ND L; cbn [insert_tuples]; [reflexivity|].
  pose proof (insert_tuple_merge tp [] cs []) as T. cbn [length app] in T. rewrite T.
  rewrite (proj2 (Nat.leb_le _ _) (L tp (or_introl eq_refl))). cbn [bind fst snd].
  rewrite fold_dict_set by (cbn [map app]; rewrite map_fst_combine; apply NoDup_firstn, ND). cbn [app].
  rewrite IH; [|rewrite merge_names; exact ND|intros x I; rewrite merge_length; apply L; right; exact I].
  cbn [bind fst snd fold_left map]. rewrite merge_names. reflexivity.
Qed.
Lemma insert_tuples_error : forall tuples cs, (exists tp, In tp tuples /\ (length cs < length tp)%nat) ->
  insert_tuples tuples cs = Err IndexError.
Proof.
  induction tuples as [|tp tuples IH]; intros cs (x & I & L); [destruct I|]. cbn [insert_tuples].
  pose proof (insert_tuple_merge tp [] cs []) as T. cbn [length app] in T. rewrite T. clear T.
  destruct (Nat.leb_spec (length tp) (length cs)) as [G|G]; [|reflexivity]. cbn [bind fst snd].
  rewrite IH; [reflexivity|]. destruct I as [->|I]; [lia|]. exists x. rewrite merge_length. auto.
Qed.

(* ---- types ---- *)
Fixpoint first_type (i : nat) (tuples : list (list val)) : option text :=
  match tuples with
  | [] => None
  | tp :: r => match number_type (column_value i tp) with Some ty => Some ty | None => first_type i r end
  end.
Lemma number_type_spec v ty : number_type v = Some ty <-> is_number_type v ty.
Proof.
  unfold is_number_type. split.
  - destruct v; cbn; try discriminate; intros [= <-]; eauto 6.
  - intros [[[b ->] ->]|[[[z ->] ->]|[[f ->] ->]]]; reflexivity.
Qed.
Lemma first_type_spec i tuples : column_type i tuples (first_type i tuples).
Proof.
  induction tuples as [|tp r IH]; cbn [first_type]; [constructor|].
  destruct (number_type (column_value i tp)) as [ty|] eqn:E.
  - constructor. apply number_type_spec, E.
  - apply CT_later; [|exact IH]. intros ty' H. apply number_type_spec in H. congruence.
Qed.
Lemma merge_nth : forall cs vs i, nth_error (merge cs vs) i =
  match nth_error cs i with None => None | Some (n, ty) => Some (n, or_type ty (column_value i vs)) end.
Proof.
  unfold column_value. induction cs as [|[n ty] cs IH]; intros vs [|i]; destruct vs as [|v vs]; cbn [merge nth_error nth]; try reflexivity.
  - destruct ty; reflexivity.
  - destruct (nth_error cs i) as [[n' [ty'|]]|]; reflexivity.
  - apply IH.
Qed.
Lemma fold_merge_nth : forall tuples cs i, nth_error (fold_left merge tuples cs) i =
  match nth_error cs i with
  | None => None
  | Some (n, ty) => Some (n, match ty with Some _ => ty | None => first_type i tuples end)
  end.
Proof.
  induction tuples as [|tp r IH]; intros cs i; cbn [fold_left first_type].
  - destruct (nth_error cs i) as [[n [ty|]]|]; reflexivity.
  - rewrite IH, merge_nth. destruct (nth_error cs i) as [[n [ty|]]|]; cbn [or_type]; try reflexivity.
    destruct (number_type (column_value i tp)); reflexivity.
Qed.
Lemma fold_merge_names : forall tuples cs, map fst (fold_left merge tuples cs) = map fst cs.
Proof. induction tuples as [|tp r IH]; intros cs; cbn [fold_left]; [reflexivity|]. rewrite IH. apply merge_names. Qed.

Lemma assoc_combine_nth : forall (ns : list text) (vs : list val) i n, NoDup ns -> nth_error ns i = Some n ->
  match assoc n (combine ns vs) with Some v => v | None => VNone end = column_value i vs.
Proof.
  unfold column_value. induction ns as [|m ns IH]; intros vs [|i] n ND H; try discriminate; cbn [nth_error] in H.
  - injection H as ->. destruct vs as [|v vs]; [reflexivity|]. cbn [combine assoc]. rewrite text_eqb_refl. reflexivity.
  - destruct vs as [|v vs]; [reflexivity|]. cbn [combine assoc nth]. inversion ND; subst.
    destruct (text_eqb n m) eqn:E; [apply text_eqb_spec in E; subst; exfalso; apply H2; eapply nth_error_In, H|]. apply IH; assumption.
Qed.
Lemma map_nth_seq A B (d : A) (f : A -> B) (l : list A) : map f l = map (fun i => f (nth i l d)) (seq 0 (length l)).
Proof.
  induction l as [|x l IH]; cbn [map length seq nth]; [reflexivity|]. f_equal. rewrite IH, <- seq_shift, map_map. reflexivity.
Qed.

Section Insert.
Variable filt : text -> val -> val.
(** A type filter applied to a value; no type, no filter. *)
Definition typed (ty : option text) (v : val) : val := match ty with None | Some [] => v | Some f => filt f v end.

(** One row per tuple, the i-th value, NULL when the tuple is shorter, under the i-th column, through the column's type. *)
Lemma insert_rows names cols tuples : map insert_column names = cols -> NoDup (map fst cols) -> cols <> [] -> tuples <> [] ->
  (forall tp, In tp tuples -> (length tp <= length cols)%nat) ->
  exists types : nat -> option text,
    (forall i n ty, nth_error cols i = Some (n, ty) ->
       match ty with Some _ => types i = ty | None => column_type i tuples (types i) end) /\
    insert filt names (Values tuples) =
    Ok (map (fun tp => map (fun i => (fst (nth i cols ([], None)), typed (types i) (column_value i tp))) (seq 0 (length cols))) tuples).
Proof.
  intros Hc ND NE NT L.
  exists (fun i => match nth_error cols i with Some (_, Some ty) => Some ty | _ => first_type i tuples end). split.
  { intros i n ty H. rewrite H. destruct ty; [reflexivity|apply first_type_spec]. }
  unfold insert. cbv zeta. rewrite Hc. destruct tuples as [|tp0 tuples']; [congruence|].
  remember (tp0 :: tuples') as tuples eqn:Et. clear Et NT.
  unfold insert_values. rewrite (insert_tuples_merge tuples cols ND L). cbn [bind fst snd].
  destruct (fold_left merge tuples cols) as [|c0 cs0] eqn:F.
  { exfalso. apply NE. pose proof (fold_merge_names tuples cols) as M. rewrite F in M. destruct cols; [reflexivity|discriminate]. }
  rewrite <- F. clear c0 cs0 F. cbv zeta.
  assert (S : fold_left (fun m c => dict_set (fst c) (snd c) m) (fold_left merge tuples cols) [] = fold_left merge tuples cols).
  { rewrite fold_dict_set; [reflexivity|]. cbn [map app]. rewrite fold_merge_names. exact ND. }
  rewrite S. f_equal. rewrite map_map. apply map_ext. intros tp.
  rewrite (map_nth_seq _ _ ([], None) _ (fold_left merge tuples cols)).
  assert (Len : length (fold_left merge tuples cols) = length cols).
  { rewrite <- (map_length fst (fold_left _ _ _)), fold_merge_names, map_length. reflexivity. }
  match goal with |- map _ (seq 0 ?n) = _ => replace n with (length cols) by (symmetry; exact Len) end.
  apply map_ext_in. intros i I. apply in_seq in I.
  destruct (nth_error cols i) as [[n ty]|] eqn:E; [|apply nth_error_None in E; lia].
  assert (E' := fold_merge_nth tuples cols i). rewrite E in E'.
  rewrite (nth_error_nth _ _ _ E'), (nth_error_nth _ _ _ E). cbn [fst snd].
  rewrite (assoc_combine_nth _ tp i n ND) by (rewrite nth_error_map, E; reflexivity).
  f_equal. destruct ty; reflexivity.
Qed.
(** A tuple with more values than columns, or no column list: IndexError. *)
Lemma insert_error names tuples : (exists tp, In tp tuples /\ (length names < length tp)%nat) ->
  insert filt names (Values tuples) = Err IndexError.
Proof.
  intros H. unfold insert. cbv zeta. destruct tuples as [|tp r]; [destruct H as (? & [] & _)|].
  unfold insert_values. rewrite insert_tuples_error; [reflexivity|]. destruct H as (x & I & L). exists x.
  rewrite map_length. auto.
Qed.
Lemma index_none c : forall s, ~ In c s -> index_of c s = None.
Proof.
  induction s as [|x s IH]; intros H; [reflexivity|]. cbn [index_of].
  destruct (N.eqb_spec x c) as [->|_]; [destruct H; left; reflexivity|]. rewrite IH; [reflexivity|]. intros I. apply H. right. exact I.
Qed.
Lemma index_first c : forall a b, ~ In c a -> index_of c (a ++ c :: b) = Some (length a).
Proof.
  induction a as [|x a IH]; intros b H; cbn [app index_of length].
  - rewrite N.eqb_refl. reflexivity.
  - destruct (N.eqb_spec x c) as [->|_]; [destruct H; left; reflexivity|]. rewrite IH; [reflexivity|]. intros I. apply H. right. exact I.
Qed.
Lemma insert_column_plain n : ~ In 91%N n -> insert_column n = (n, None).
Proof. intros H. unfold insert_column. rewrite index_none by exact H. reflexivity. Qed.
Lemma insert_column_typed n ty : ~ In 91%N n -> ~ In 59%N ty -> ~ In 93%N ty ->
  insert_column (n ++ [91%N] ++ ty ++ [93%N]) = (n, Some ty).
Proof.
  intros H S B. unfold insert_column. cbn [app]. rewrite index_first by exact H.
  assert (R : rindex_of 93 (n ++ 91%N :: ty ++ [93%N]) = Some (length n + 1 + length ty)%nat).
  { unfold rindex_of. change (n ++ 91%N :: ty ++ [93%N]) with (n ++ (91%N :: ty) ++ [93%N]).
    rewrite !app_assoc, rev_app_distr. cbn [rev app index_of N.eqb Pos.eqb]. rewrite !app_length. cbn [length]. f_equal. lia. }
  rewrite R. cbv zeta.
  assert (K : skipn (length n + 1) (n ++ 91%N :: ty ++ [93%N]) = ty ++ [93%N]).
  { rewrite skipn_app, skipn_all2 by lia. replace (length n + 1 - length n)%nat with 1%nat by lia. reflexivity. }
  rewrite K. replace (length n + 1 + length ty - (length n + 1))%nat with (length ty) by lia.
  assert (F1 : firstn (length ty) (ty ++ [93%N]) = ty) by (rewrite firstn_app, firstn_all, Nat.sub_diag; apply app_nil_r).
  assert (F2 : firstn (length n) (n ++ 91%N :: ty ++ [93%N]) = n) by (rewrite firstn_app, firstn_all, Nat.sub_diag; apply app_nil_r).
  rewrite F1, F2, split_on_none by exact S. reflexivity.
Qed.

(** Values of one type per column are stored as they are. *)
Lemma insert_exact names tuples : (forall n, In n names -> ~ In 91%N n) -> NoDup names -> names <> [] -> tuples <> [] ->
  (forall tp, In tp tuples -> (length tp <= length names)%nat) ->
  (forall ty v, is_number_type v ty -> filt ty v = v) ->
  (forall i, (i < length names)%nat -> (forall tp ty, In tp tuples -> ~ is_number_type (column_value i tp) ty) \/
                                       exists ty, forall tp, In tp tuples -> is_number_type (column_value i tp) ty) ->
  insert filt names (Values tuples) = Ok (map (stored_row names) tuples).
Proof.
  intros Pl ND NE NT L Id Same.
  assert (C : map insert_column names = map (fun n => (n, None)) names).
  { apply map_ext_in. intros n I. apply insert_column_plain, Pl, I. }
  assert (F : map fst (map (fun n : text => (n, @None text)) names) = names) by (rewrite map_map; apply map_id).
  assert (NE' : map (fun n : text => (n, @None text)) names <> []) by (intros E; apply NE; destruct names; [reflexivity|discriminate]).
  assert (ND' : NoDup (map fst (map (fun n : text => (n, @None text)) names))) by (rewrite F; exact ND).
  destruct (insert_rows names _ tuples C) as (types & T & ->); [exact ND'|exact NE'|exact NT|rewrite map_length; exact L|].
  rewrite map_length.
  f_equal. apply map_ext_in. intros tp Itp. unfold stored_row.
  assert (K : forall l (k : nat), (forall i n, nth_error l i = Some n -> nth_error names (k + i) = Some n) ->
     map (fun i => (fst (nth i (map (fun n => (n, @None text)) names) ([], None)), typed (types i) (column_value i tp))) (seq k (length l)) =
     map (fun p => (snd p, column_value (fst p) tp)) (combine (seq k (length l)) l)).
  { induction l as [|n l IH]; intros k H; [reflexivity|]. cbn [length seq map combine fst snd]. f_equal.
    - specialize (H 0%nat n eq_refl). rewrite Nat.add_0_r in H.
      assert (H' : nth_error (map (fun n => (n, @None text)) names) k = Some (n, None)) by (rewrite nth_error_map, H; reflexivity).
      rewrite (nth_error_nth _ _ _ H'). cbn [fst]. f_equal. specialize (T k n None H'). cbn in T.
      assert (Lk : (k < length names)%nat) by (apply nth_error_Some; congruence).
      destruct (Same k Lk) as [None_|[ty All]].
      + assert (types k = None) as ->; [|reflexivity]. clear - T None_. revert None_. induction T; intros None_; [reflexivity| |].
        * exfalso. eapply None_; [left; reflexivity|exact H].
        * apply IHT. intros tp ty' I. apply None_. right. exact I.
      + destruct T as [|tuple r ty' Hty|tuple r ty' Hno _].
        * destruct Itp.
        * cbn [typed]. destruct (number_type (column_value k tp)) eqn:E.
          -- specialize (All tuple (or_introl eq_refl)) as A1. specialize (All tp Itp) as A2.
             apply number_type_spec in A1, A2, Hty. assert (ty' = ty) by congruence. subst ty'.
             apply number_type_spec in A2. destruct ty as [|c ty]; [reflexivity|]. apply Id, A2.
          -- specialize (All tp Itp) as A2. apply number_type_spec in A2. congruence.
        * exfalso. apply (Hno ty). apply All. left. reflexivity.
    - apply IH. intros i m Hm. rewrite <- plus_n_Sm || idtac. specialize (H (S i) m Hm). rewrite <- plus_n_Sm in H. exact H. }
  specialize (K names 0%nat). apply K. intros i n H. exact H.
Qed.
End Insert.

(* ---- theorems ---- *)
Theorem insert_values_rows : forall filt names cols tuples,
  map insert_column names = cols -> NoDup (map fst cols) -> cols <> [] -> tuples <> [] ->
  (forall tp, In tp tuples -> (length tp <= length cols)%nat) ->
  exists types : nat -> option text,
    (forall i n ty, nth_error cols i = Some (n, ty) ->
       match ty with Some _ => types i = ty | None => column_type i tuples (types i) end) /\
    insert filt names (Values tuples) =
    Ok (map (fun tp => map (fun i => (fst (nth i cols ([], None)), typed filt (types i) (column_value i tp))) (seq 0 (length cols))) tuples).
Proof. exact insert_rows. Qed.
Print Assumptions insert_values_rows.
Theorem insert_values_exact : forall filt names tuples,
  (forall n, In n names -> ~ In 91%N n) -> NoDup names -> names <> [] -> tuples <> [] ->
  (forall tp, In tp tuples -> (length tp <= length names)%nat) ->
  (forall ty v, is_number_type v ty -> filt ty v = v) ->
  (forall i, (i < length names)%nat -> (forall tp ty, In tp tuples -> ~ is_number_type (column_value i tp) ty) \/
                                       exists ty, forall tp, In tp tuples -> is_number_type (column_value i tp) ty) ->
  insert filt names (Values tuples) = Ok (map (stored_row names) tuples).
Proof. exact insert_exact. Qed.
Print Assumptions insert_values_exact.
Theorem insert_too_many_values : forall filt names tuples,
  (exists tp, In tp tuples /\ (length names < length tp)%nat) -> insert filt names (Values tuples) = Err IndexError.
Proof. exact insert_error. Qed.
Print Assumptions insert_too_many_values.
Theorem insert_column_type : forall n ty, ~ In 91%N n ->
  insert_column n = (n, None) /\
  (~ In 59%N ty -> ~ In 93%N ty -> insert_column (n ++ [91%N] ++ ty ++ [93%N]) = (n, Some ty)).
Proof. intros n ty H. split; [apply insert_column_plain, H|]. intros. apply insert_column_typed; assumption. Qed.
Print Assumptions insert_column_type.

Definition id_filt : text -> val -> val := fun _ v => v.
Example insert_exact_case :
  insert id_filt [t "id"; t "name"] (Values [[VInt 1; VStr (t "x")]; [VInt 2]]) =
  Ok [[(t "id", VInt 1); (t "name", VStr (t "x"))]; [(t "id", VInt 2); (t "name", VNone)]] /\
  (forall i, (i < 2)%nat ->
    (forall tp ty, In tp [[VInt 1; VStr (t "x")]; [VInt 2]] -> ~ is_number_type (column_value i tp) ty) \/
    exists ty, forall tp, In tp [[VInt 1; VStr (t "x")]; [VInt 2]] -> is_number_type (column_value i tp) ty).
Proof.
  split; [reflexivity|]. intros [|[|i]] H; [| |lia].
  - right. exists (t "int"). intros tp [<-|[<-|[]]]; right; left; (split; [eexists; reflexivity|reflexivity]).
  - left. intros tp ty [<-|[<-|[]]] K; apply number_type_spec in K; discriminate.
Qed.
(** A column is converted to the type of the first number in it: a fraction after an integer, NULL and text too. *)
Theorem insert_first_type_refuted : forall filt v1 z,
  insert filt [t "a"] (Values [[VInt z]; [v1]]) =
  Ok [[(t "a", filt (t "int") (VInt z))]; [(t "a", filt (t "int") v1)]].
Proof. reflexivity. Qed.
Print Assumptions insert_first_type_refuted.
(** INSERT ... SELECT does not look at the listed columns. *)
Theorem insert_select_columns_refuted : forall filt names names' rows,
  insert filt names (Query rows) = insert filt names' (Query rows) /\ insert filt names (Query rows) = Ok rows.
Proof. intros. split; reflexivity. Qed.
Print Assumptions insert_select_columns_refuted.
(** VALUES without a column list is never accepted. *)
Theorem insert_no_columns_refuted : forall filt tuples, exists e, insert filt [] (Values tuples) = Err e.
Proof.
  intros filt [|tp r]; [eexists; reflexivity|].
  destruct (existsb (fun tp => negb (Nat.eqb (length tp) 0)) (tp :: r)) eqn:E.
  - exists IndexError. apply insert_error. apply existsb_exists in E. destruct E as (x & I & N). exists x. split; [exact I|].
    destruct (length x) eqn:Lx; [discriminate|cbn; lia].
  - assert (A : forall x, In x (tp :: r) -> (length x <= 0)%nat).
    { intros x I. destruct (length x) eqn:Lx; [lia|]. exfalso.
      assert (existsb (fun tp => negb (Nat.eqb (length tp) 0)) (tp :: r) = true) by (apply existsb_exists; exists x; rewrite Lx; auto). congruence. }
    exists IndexError. unfold insert. cbv zeta. cbn [map]. unfold insert_values.
    rewrite (insert_tuples_merge (tp :: r) [] ltac:(constructor) A). cbn [bind fst snd].
    assert (fold_left merge (tp :: r) [] = []) as ->; [|reflexivity].
    clear. induction (tp :: r) as [|x l IH]; [reflexivity|]. exact IH.
Qed.
Print Assumptions insert_no_columns_refuted.

(** C252, C253: examples and refutations. *)
From Verif Require Import Base PyVal Str_Model Str_Proofs Interp_Model Interp_Props Viewarg_Spec Viewarg_Model Viewarg_Proofs Viewarg_Props.

(** Values: numbers of one digit are JSON. *)
Definition js (s : text) : option (N + text) := match s with [c] => if ((48 <=? c) && (c <=? 57))%N then Some (inl (c - 48)%N) else None | _ => None end.
Notation parse_x := (parse_virtual_view_args (N + text) js inr (fun _ => false)).
Lemma single_b : forall s, length (split_go (t "__") 0 [] s) = 1%nat -> single_underscores s.
Proof.
  assert (G : forall s cur, (exists a b, s = a ++ t "__" ++ b) -> (2 <= length (split_go (t "__") 0 cur s))%nat).
  { induction s as [|c s IH]; intros cur (a & b & E); [destruct a; discriminate E|]. cbn [split_go]. destruct (prefixb (t "__") (c :: s)) eqn:P.
    - cbn [length]. pose proof (split_nonempty (t "__") s (length (t "__") - 1) []). destruct (split_go _ _ _ s); [congruence|cbn; lia].
    - apply IH. destruct a as [|x a]; [exfalso; rewrite (proj2 (prefixb_spec _ _)) in P; [discriminate P|exists b; exact E]|]. injection E as <- E. exists a, b. exact E. }
  intros s L a b E. pose proof (G s [] (ex_intro _ a (ex_intro _ b E))). lia.
Qed.
Lemma last_not : forall s c, last s 0%N <> c -> forall a, s <> a ++ [c].
Proof. intros s c H a E. apply H. rewrite E, last_last. reflexivity. Qed.
Lemma chars_b : forall n, forallb (Viewarg_Model.word (fun _ => false)) n = true -> Forall (name_char (fun _ => false)) n.
Proof. intros n F. rewrite forallb_forall in F. apply Forall_forall. intros c I. apply word_spec, F, I. Qed.
(** select * from t where id = #{id} and day >= #{day__gte:2020} and n in #{n__in:3} and k = #{id} *)
Definition view_ps : list piece :=
  [Lit (t "select * from t where id = "); Arg (t "id") None None; Lit (t " and day >= "); Arg (t "day") (Some (t "gte")) (Some (t "2020"));
   Lit (t " and n in "); Arg (t "n") (Some (t "in")) (Some (t "3")); Lit (t " and k = "); Arg (t "id") None None].
Ltac names := repeat split; first [discriminate|apply chars_b; reflexivity|apply single_b; reflexivity|apply last_not; discriminate|apply nodecide; reflexivity|exact I].
Lemma lit_ok : forall s, existsb (N.eqb 35) s = false -> inert s.
Proof. intros s H. apply no_hash_inert, nodecide, H. Qed.
Example view_ps_ok : Forall (piece_ok (fun _ => false)) view_ps.
Proof. unfold view_ps. repeat apply Forall_cons; try apply Forall_nil; cbn [piece_ok]; first [apply lit_ok; reflexivity|names]. Qed.
Example view_applies : parse_x (render view_ps) = Ok (t "select * from t where id = %s and day >= %s and n in %s and k = %s",
  [(t "id", t "==", inr []); (t "day", t ">=", inr (t "2020")); (t "n", t "in", inl 3%N); (t "id", t "==", inr [])]).
Proof.
  apply view_arguments; [exact view_ps_ok|]. unfold view_ps.
  change (t "select * from t where id = %s and day >= %s and n in %s and k = %s")
    with (t "select * from t where id = " ++ t "%s" ++ t " and day >= " ++ t "%s" ++ t " and n in " ++ t "%s" ++ t " and k = " ++ t "%s" ++ []).
  repeat first [apply M_text|apply M_arg; [constructor|reflexivity|]|apply M_end].
Qed.
Example view_refuses : parse_x (t "select * from t where d = #{created__at}") = Err KeyError.
Proof.
  apply (view_unknown_operator (N + text) js inr (fun _ => false) [Lit (t "select * from t where d = "); Arg (t "created") (Some (t "at")) None] (t "created") (t "at") None).
  - repeat apply Forall_cons; try apply Forall_nil; cbn [piece_ok]; first [apply lit_ok; reflexivity|names].
  - right. left. reflexivity.
  - intros e O. inversion O.
Qed.
(** select * from t where name like '%south' and id = #{id}: two marks, one argument. *)
Theorem view_marks_refuted : exists ps q args, Forall (piece_ok (fun _ => false)) ps /\ meaning (N + text) js inr ps q args /\ parse_x (render ps) = Ok (q, args) /\ marks q <> length args.
Proof.
  exists [Lit (t "select * from t where name like '%south' and id = "); Arg (t "id") None None].
  eexists. eexists. assert (F : Forall (piece_ok (fun _ => false)) [Lit (t "select * from t where name like '%south' and id = "); Arg (t "id") None None]).
  { repeat apply Forall_cons; try apply Forall_nil; cbn [piece_ok]; first [apply lit_ok; reflexivity|names]. }
  assert (M : meaning (N + text) js inr [Lit (t "select * from t where name like '%south' and id = "); Arg (t "id") None None]
    (t "select * from t where name like '%south' and id = " ++ t "%s" ++ []) [(t "id", t "==", inr [])]) by (apply M_text, M_arg; [constructor|reflexivity|apply M_end]).
  split; [exact F|]. split; [exact M|]. split; [apply view_arguments; assumption|]. vm_compute. discriminate.
Qed.
Example view_marks_applies : marks (t "select * from t where id = %s and day >= %s and n in %s and k = %s") = 4%nat.
Proof. reflexivity. Qed.
Print Assumptions view_marks_refuted.

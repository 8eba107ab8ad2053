(** C252, C253: the queries of virtual views. *)
From Verif Require Import Base PyVal Str_Model Str_Proofs Interp_Model Interp_Props Viewarg_Spec Viewarg_Model Viewarg_Proofs.
Local Open Scope nat_scope.

(** ** str.split at two underscores *)
Lemma split_single : forall s cur, single_underscores s -> split_go (t "__") 0 cur s = [rev cur ++ s].
Proof.
  induction s as [|c s IH]; intros cur H; cbn [split_go]; [rewrite app_nil_r; reflexivity|].
  destruct (prefixb (t "__") (c :: s)) eqn:E; [exfalso; apply prefixb_spec in E; destruct E as [r E]; apply (H [] r); exact E|].
  rewrite IH; [cbn [rev]; rewrite <- app_assoc; reflexivity|]. intros a b Es. apply (H (c :: a) b). rewrite Es. reflexivity.
Qed.
Lemma split_two : forall s cur r, single_underscores s -> (forall a, s <> a ++ t "_") -> split_go (t "__") 0 cur (s ++ t "__" ++ r) = (rev cur ++ s) :: split_go (t "__") 0 [] r.
Proof.
  induction s as [|c s IH]; intros cur r H L.
  - rewrite app_nil_r. reflexivity.
  - cbn [app split_go]. destruct (prefixb (t "__") (c :: s ++ t "__" ++ r)) eqn:E.
    + exfalso. apply prefixb_spec in E. destruct E as [x E]. cbn in E. injection E as -> E. destruct s as [|d s]; [apply (L []); reflexivity|].
      cbn in E. injection E as -> _. apply (H [] s). reflexivity.
    + change (t "__" ++ r) with (95%N :: 95%N :: r) in IH. cbn [app] in IH. rewrite IH; [cbn [rev]; rewrite <- app_assoc; reflexivity| |].
      * intros a b Es. apply (H (c :: a) b). rewrite Es. reflexivity.
      * intros a Es. apply (L (c :: a)). rewrite Es. reflexivity.
Qed.

Section Props.
Variable V : Type.
Variable json : text -> option V.
Variable of_text : text -> V.
Variable uword : N -> bool.
Notation parse := (parse_virtual_view_args V json of_text uword).
Notation argument := (argument V json of_text).
Notation meaning := (meaning V json of_text).

Definition raw_of (p : piece) : raw := match p with Lit s => RLit s | Arg n o d => Hole (written_name n o) d end.
Lemma raw_source : forall p, source_raw (raw_of p) = source p.
Proof. intros [s|n o [d|]]; reflexivity. Qed.
Lemma raw_render : forall ps, render ps = render_raw (map raw_of ps).
Proof. intros ps. unfold render, render_raw. rewrite map_map. f_equal. apply map_ext. intros p. symmetry. apply raw_source. Qed.
Lemma raw_of_ok : forall p, piece_ok uword p -> raw_ok uword (raw_of p).
Proof.
  intros [s|n o d] H; [exact H|]. destruct H as (Nn & F & _ & O & D). split; [|exact D]. split.
  - destruct n; [contradiction|discriminate].
  - unfold written_name. apply Forall_app. split; [exact F|]. destruct o as [o|]; [|apply Forall_nil]. destruct O as (_ & O & _). cbn. repeat (apply Forall_cons; [right; right; right; left; reflexivity|]). exact O.
Qed.
Definition piece_key (n : text) (o d : option text) : text * text := key (written_name n o) d.
Lemma operator_code : forall o, (exists e, operator (Some o) e /\ assoc o exps = Some e) \/ (assoc o exps = None /\ forall e, ~ operator (Some o) e).
Proof.
  intros o. unfold exps. cbn [assoc fst snd].
  repeat match goal with |- context[text_eqb ?a ?b] => let E := fresh "E" in destruct (text_eqb a b) eqn:E; [apply text_eqb_spec in E; subst; left; eexists; split; [constructor|reflexivity]|apply text_eqb_neq in E] end.
  right. split; [reflexivity|]. intros e H. inversion H; subst; match goal with E : _ |- _ => apply E; reflexivity end.
Qed.
Lemma argument_known : forall n o d e v, piece_ok uword (Arg n o d) -> operator o e -> default_value V json of_text d v -> argument (piece_key n o d) = Ok (n, e, v).
Proof.
  intros n o d e v (_ & _ & Sn & Ho & _) O D. unfold Viewarg_Model.argument, piece_key, key. cbn [fst snd].
  assert (Ev : match json (tl (match d with None => [] | Some d => 58%N :: d end)) with Some j => j | None => of_text (tl (match d with None => [] | Some d => 58%N :: d end)) end = v).
  { unfold default_value in D. destruct d as [d|]; cbn [tl]; destruct (json _); symmetry; exact D. }
  rewrite Ev. unfold written_name. destruct o as [o|].
  - destruct Ho as (L & _ & So). rewrite split_two by assumption. rewrite split_single by exact So. cbn [rev app].
    destruct (operator_code o) as [(e' & O' & ->)|(_ & K)]; [|destruct (K e O)]. inversion O; subst; inversion O'; subst; reflexivity.
  - rewrite app_nil_r, split_single by exact Sn. inversion O. reflexivity.
Qed.
Lemma argument_unknown : forall n o d, piece_ok uword (Arg n (Some o) d) -> (forall e, ~ operator (Some o) e) -> argument (piece_key n (Some o) d) = Err KeyError.
Proof.
  intros n o d (_ & _ & Sn & (L & _ & So) & _) K. unfold Viewarg_Model.argument, piece_key, key. cbn [fst snd]. unfold written_name.
  rewrite split_two by assumption. rewrite split_single by exact So. cbn [rev app]. destruct (operator_code o) as [(e & O & _)|(-> & _)]; [destruct (K e O)|reflexivity].
Qed.

Lemma collect_all : forall ks l q args, Forall2 (fun k a => argument k = Ok a) ks l ->
  collect V json of_text ks q args = Ok (fold_left (fun s k => py_replace s (placeholder k) (t "%s")) ks q, args ++ l).
Proof.
  intros ks l q args F. revert q args. induction F as [|k a ks l E F IH]; intros q args; cbn [collect fold_left]; [rewrite app_nil_r; reflexivity|].
  rewrite E. cbn [bind]. rewrite IH, <- app_assoc. reflexivity.
Qed.
Lemma collect_stops : forall ks q args, Forall (fun k => argument k = Err KeyError \/ exists a, argument k = Ok a) ks -> Exists (fun k => argument k = Err KeyError) ks ->
  collect V json of_text ks q args = Err KeyError.
Proof.
  intros ks q args F X. revert q args. induction F as [|k ks D F IH]; intros q args; [inversion X|]. cbn [collect]. destruct D as [->|(a & E)]; [reflexivity|].
  rewrite E. cbn [bind]. apply IH. inversion X as [? ? H|? ? H]; subst; [congruence|exact H].
Qed.
Fixpoint piece_keys (ps : list piece) : list (text * text) := match ps with [] => [] | Lit _ :: r => piece_keys r | Arg n o d :: r => piece_key n o d :: piece_keys r end.
Lemma found : forall ps, Forall (piece_ok uword) ps -> find_all uword (S (length (render ps))) (render ps) = piece_keys ps.
Proof.
  intros ps F. rewrite raw_render. rewrite find_all_render_raw; [|apply Forall_map; eapply Forall_impl; [|exact F]; exact raw_of_ok|lia].
  clear F. unfold keys. induction ps as [|[s|n o d] ps IH]; [reflexivity|exact IH|]. cbn [map raw_of concat piece_keys app]. rewrite IH. reflexivity.
Qed.
Lemma keys_ok : forall ps n o d, In (Arg n o d) ps -> In (piece_key n o d) (piece_keys ps).
Proof. induction ps as [|[s|n' o' d'] ps IH]; intros n o d I; [destruct I| |]; destruct I as [E|I]; try discriminate; cbn [piece_keys]; [apply IH, I|left; congruence|right; apply IH, I]. Qed.
Lemma meant_keys : forall ps q args, meaning ps q args -> Forall (piece_ok uword) ps -> Forall2 (fun k a => argument k = Ok a) (piece_keys ps) args.
Proof.
  intros ps q args M. induction M as [|s ps q args M IH|n o d e v ps q args O D M IH]; intros F; [constructor| |]; inversion F as [|x y H F']; subst; cbn [piece_keys]; [exact (IH F')|].
  constructor; [exact (argument_known n o d e v H O D)|exact (IH F')].
Qed.
Lemma meant_query : forall ps q args, meaning ps q args -> concat (map (fun p => match p with RLit s => s | Hole n d => t "%s" end) (map raw_of ps)) = q.
Proof. intros ps q args M. induction M as [|s ps q args M IH|n o d e v ps q args O D M IH]; [reflexivity| |]; cbn [map concat raw_of]; rewrite IH; reflexivity. Qed.

(** C252.  Each placeholder becomes a mark, and the arguments are those of the placeholders, in their order. *)
Theorem view_arguments : forall ps q args, Forall (piece_ok uword) ps -> meaning ps q args -> parse (render ps) = Ok (q, args).
Proof.
  intros ps q args F M. unfold parse_virtual_view_args. rewrite (found ps F), (collect_all _ args) by exact (meant_keys ps q args M F). cbn [app]. f_equal. f_equal.
  rewrite raw_render. rewrite <- (meant_query ps q args M). apply expand_all with (uword := uword).
  - apply Forall_map. eapply Forall_impl; [|exact F]. exact raw_of_ok.
  - apply Forall_forall. intros k I. rewrite Forall_forall in F. assert (H : exists n o d, In (Arg n o d) ps /\ k = piece_key n o d).
    { clear F M. induction ps as [|[s|n o d] ps IH]; cbn [piece_keys] in I; [destruct I| |].
      - destruct (IH I) as (n & o & d & J & E). exists n, o, d. split; [right; exact J|exact E].
      - destruct I as [<-|I]; [exists n, o, d; split; [left; reflexivity|reflexivity]|]. destruct (IH I) as (n' & o' & d' & J & E). exists n', o', d'. split; [right; exact J|exact E]. }
    destruct H as (n & o & d & J & ->). exists (written_name n o), d. split; [reflexivity|]. split; [exact (raw_of_ok _ (F _ J))|]. intros [X|[X|[]]]; discriminate X.
  - intros n d I. apply in_map_iff in I. destruct I as ([s|n' o' d'] & E & I); [discriminate E|]. injection E as <- <-. exact (keys_ok ps n' o' d' I).
Qed.
(** An operator of another name is refused. *)
Theorem view_unknown_operator : forall ps n o d, Forall (piece_ok uword) ps -> In (Arg n (Some o) d) ps -> (forall e, ~ operator (Some o) e) -> parse (render ps) = Err KeyError.
Proof.
  intros ps n o d F I K. unfold parse_virtual_view_args. rewrite (found ps F). rewrite Forall_forall in F. apply collect_stops.
  - apply Forall_forall. intros k Ik. assert (H : exists n o d, In (Arg n o d) ps /\ k = piece_key n o d).
    { clear I K F. induction ps as [|[s|n1 o1 d1] ps IH]; cbn [piece_keys] in Ik; [destruct Ik| |].
      - destruct (IH Ik) as (n1 & o1 & d1 & J & E). exists n1, o1, d1. split; [right; exact J|exact E].
      - destruct Ik as [<-|Ik]; [exists n1, o1, d1; split; [left; reflexivity|reflexivity]|]. destruct (IH Ik) as (n' & o' & d' & J & E). exists n', o', d'. split; [right; exact J|exact E]. }
    destruct H as (n' & o' & d' & J & ->). pose proof (F _ J) as P.
    assert (Dv : exists v, default_value V json of_text d' v) by (unfold default_value; destruct (json _) as [j|]; eexists; reflexivity). destruct Dv as [v Dv].
    destruct o' as [o'|]; [|right; eexists; exact (argument_known n' None d' _ v P O_default Dv)].
    destruct (operator_code o') as [(e & O & _)|(_ & K')]; [right; eexists; exact (argument_known _ _ _ _ _ P O Dv)|left; exact (argument_unknown _ _ _ P K')].
  - apply Exists_exists. exists (piece_key n (Some o) d). split; [exact (keys_ok ps n (Some o) d I)|exact (argument_unknown n o d (F _ I) K)].
Qed.
(** A query without placeholders is left as it is. *)
Theorem view_without_placeholders : forall s, (forall a b, s <> a ++ t "#{" ++ b) -> parse s = Ok (s, []).
Proof.
  intros s H. unfold parse_virtual_view_args.
  assert (G : forall f s, (forall a b, s <> a ++ t "#{" ++ b) -> find_all uword f s = []).
  { clear. induction f as [|f IH]; intros s H; [reflexivity|]. destruct s as [|c r]; [reflexivity|]. rewrite find_all_step.
    - apply IH. intros a b E. apply (H (c :: a) b). rewrite E. reflexivity.
    - intros -> x ->. apply (H [] x). reflexivity. }
  rewrite (G _ s H). reflexivity.
Qed.

(** C253.  The marks are as many as the arguments when the text around the placeholders has no percent sign. *)
Lemma marks_plain : forall s r, ~ In 37%N s -> marks (s ++ r) = marks r.
Proof.
  induction s as [|c s IH]; intros r H; [reflexivity|]. cbn [app marks]. rewrite IH by (intros I; apply H; right; exact I).
  destruct (N.eqb_spec c 37) as [->|_]; [exfalso; apply H; left; reflexivity|]. destruct (s ++ r); reflexivity.
Qed.
Theorem view_marks_partial : forall ps q args, meaning ps q args -> (forall s, In (Lit s) ps -> ~ In 37%N s) -> marks q = length args.
Proof.
  intros ps q args M. induction M as [|s ps q args M IH|n o d e v ps q args O D M IH]; intros H; [reflexivity| |].
  - rewrite marks_plain by (apply H; left; reflexivity). apply IH. intros s' I. apply H. right. exact I.
  - change (t "%s" ++ q) with (37%N :: 115%N :: q). cbn [marks length]. rewrite IH by (intros s' I; apply H; right; exact I). destruct q; reflexivity.
Qed.
End Props.
Print Assumptions view_arguments.
Print Assumptions view_unknown_operator.
Print Assumptions view_without_placeholders.
Print Assumptions view_marks_partial.

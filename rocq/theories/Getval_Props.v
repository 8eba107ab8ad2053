(** C257: GET_VALUE. *)
From Verif Require Import Base PyVal Getval_Syntax Getval_Spec Getval_Model.
Local Open Scope nat_scope.
Lemma number_int : forall c z, number c z -> int_of c = Some z.
Proof. intros c z H. destruct H; reflexivity. Qed.
Lemma path_key : forall k p, path k p -> key_path k = Ok p.
Proof.
  intros k p H. destruct H as [s|c z H|c z H|c d y z H H'|b c d x y z H H' H'']; cbn [key_path flat_map app]; repeat match goal with N : number _ _ |- _ => apply number_int in N; rewrite N; clear N end; reflexivity.
Qed.
Section Props.
Variable V : Type.
Variable at_path : text -> V -> V.
Notation compile := (compile V).
Notation eval := (eval V at_path).
Notation follow := (follow V at_path).
Lemma parse_follows : forall ks k v w, follows V at_path v (k :: ks) w -> exists r, get_value_parse k ks = Ok r /\ follow r v = w.
Proof.
  induction ks as [|k' ks IH]; intros k v w H; inversion H as [|v0 k0 p ks0 w0 P F]; subst; cbn [get_value_parse]; rewrite (path_key k p P); cbn [bind].
  - inversion F; subst. exists (Path p). split; reflexivity.
  - destruct (IH k' _ _ F) as [r [E W]]. rewrite E. cbn [bind]. exists (Nest p r). split; [reflexivity|exact W].
Qed.
(** C257.  GET_VALUE follows the value along its keys. *)
Theorem get_value_follows : forall r e v, means V at_path r e v -> exists c, compile e = Ok c /\ eval c r = v.
Proof.
  intros r e v M. induction M as [n|f|e ks v w M [c [C E]] F]; [exists (Text V n); split; reflexivity|exists (List V f); split; reflexivity|].
  cbn [Getval_Model.compile]. rewrite C. cbn [bind]. destruct ks as [|k ks]; [inversion F; subst; exists c; split; reflexivity|].
  destruct (parse_follows ks k v w F) as [q [Q W]]. rewrite Q. cbn [bind]. eexists. split; [reflexivity|]. destruct c as [n|f|n q'|c q']; cbn [Getval_Model.eval] in *; subst v; exact W.
Qed.
(** ... and every expression whose keys have paths has a meaning in every row. *)
Lemma keys_follow : forall ks v, Forall (fun k => exists p, path k p) ks -> exists w, follows V at_path v ks w.
Proof.
  intros ks v F. revert v. induction F as [|k ks [p P] F IH]; intros v; [exists v; constructor|]. destruct (IH (at_path p v)) as [w W]. exists w. exact (F_step V at_path v k p ks w P W).
Qed.
Theorem get_value_compiles : forall e, proper V e -> exists c, compile e = Ok c /\ forall r, means V at_path r e (eval c r).
Proof.
  intros e P. assert (M : forall r, exists v, means V at_path r e v).
  { intros r. induction P as [n|f|e ks P [v M] F]; [eexists; constructor|eexists; constructor|]. destruct (keys_follow ks v F) as [w W]. exists w. exact (M_get V at_path r e ks v w M W). }
  destruct (compile e) as [c|x] eqn:C.
  - exists c. split; [reflexivity|]. intros r. destruct (M r) as [v N]. destruct (get_value_follows r e v N) as [c' [C' E]]. rewrite C in C'. injection C' as <-. rewrite E. exact N.
  - exfalso. revert x C. induction P as [n|f|e ks P IH F]; intros x C; try discriminate C.
    assert (Me : forall r, exists v, means V at_path r e v) by (intros r; destruct (M r) as [v N]; inversion N; subst; eexists; eassumption).
    cbn [Getval_Model.compile] in C. destruct (compile e) as [c|y]; [|exact (IH Me y eq_refl)]. cbn [bind] in C. destruct ks as [|k ks]; [discriminate C|].
    assert (Q : forall ks k, Forall (fun k => exists p, path k p) (k :: ks) -> exists q, get_value_parse k ks = Ok q).
    { clear. induction ks as [|k' ks IH]; intros k F; inversion F as [|k0 l [p P] F']; subst; cbn [get_value_parse]; rewrite (path_key k p P); cbn [bind]; [eexists; reflexivity|].
      destruct (IH k' F') as [q Q]. rewrite Q. eexists. reflexivity. }
    destruct (Q ks k F) as [q E]. rewrite E in C. discriminate C.
Qed.
(** GET_VALUE(GET_VALUE(e, j...), k...) is GET_VALUE(e, j..., k...). *)
Theorem get_value_nested : forall e js ks, proper V (Get (Get e js) ks) ->
  exists c c', compile (Get (Get e js) ks) = Ok c /\ compile (Get e (js ++ ks)) = Ok c' /\ forall r, eval c r = eval c' r.
Proof.
  intros e js ks P. destruct (get_value_compiles _ P) as [c [C M]]. inversion P as [| |e0 ks0 P' Fk]; subst. inversion P' as [| |e1 js0 Pe Fj]; subst.
  destruct (get_value_compiles (Get e (js ++ ks))) as [c' [C' M']]; [constructor; [exact Pe|apply Forall_app; split; assumption]|].
  exists c, c'. split; [exact C|]. split; [exact C'|]. intros r. specialize (M r). inversion M as [| |e0 ks0 v w Mg Fk' EQ]; subst. inversion Mg as [| |e1 js0 u v0 Me Fj']; subst.
  assert (J : forall js v u w, follows V at_path u js v -> follows V at_path v ks w -> follows V at_path u (js ++ ks) w).
  { clear. intros js v u w H. revert w. induction H as [v|v k p js w P F IH]; intros x H'; [exact H'|]. cbn [app]. exact (F_step V at_path v k p _ x P (IH x H')). }
  assert (N : means V at_path r (Get e (js ++ ks)) (eval c r)) by exact (M_get V at_path r e _ u _ Me (J js v u _ Fj' Fk')).
  destruct (get_value_follows r _ _ N) as [d [D E]]. rewrite C' in D. injection D as <-. symmetry. exact E.
Qed.
(** A key that is neither a constant nor a tuple is refused. *)
Theorem get_value_refused : forall e, improper V e -> exists x, compile e = Err x.
Proof.
  intros e I. induction I as [e ks K|e ks I [x E]].
  - cbn [Getval_Model.compile]. destruct (compile e) as [c|x]; [|exists x; reflexivity]. cbn [bind]. destruct ks as [|k ks]; [destruct K|].
    assert (Q : forall ks k, In Other (k :: ks) -> exists x, get_value_parse k ks = Err x).
    { clear. induction ks as [|k' ks IH]; intros k [E|K]; cbn [get_value_parse]; try (subst k; eexists; reflexivity); try (destruct K; fail).
      destruct (key_path k) as [p|x]; [|exists x; reflexivity]. cbn [bind]. destruct (IH k' K) as [x E]. rewrite E. exists x. reflexivity. }
    destruct (Q ks k K) as [x E]. rewrite E. exists x. reflexivity.
  - cbn [Getval_Model.compile]. rewrite E. exists x. reflexivity.
Qed.
End Props.
Print Assumptions get_value_follows.
Print Assumptions get_value_compiles.
Print Assumptions get_value_nested.
Print Assumptions get_value_refused.
(** GET_VALUE(x, 'pay.types', (-1, 3), 0) with values that are the paths followed so far. *)
Example get_value_apply : exists c, compile (list text) (Get (Get (Col (t "x")) [Const (Str (t "pay.types")); Tuple [Some (Int (-1)); Some (Int 3)]]) [Const (Int 0)]) = Ok c /\
  eval (list text) (fun p v => v ++ [p]) c (fun n => [n]) = [t "x"; t "pay.types"; t ":-1:3"; t ":0"].
Proof. eexists. split; reflexivity. Qed.
Example get_value_proper : proper (list text) (Get (Get (Col (t "x")) [Const (Str (t "pay.types")); Tuple [Some (Int (-1)); Some (Int 3)]]) [Const (Int 0)]).
Proof.
  constructor; [constructor; [constructor|]|].
  - apply Forall_cons; [eexists; apply P_string|]. apply Forall_cons; [eexists; apply (P_two (Int (-1)) (Int 3)); constructor|apply Forall_nil].
  - apply Forall_cons; [eexists; apply (P_number (Int 0)); constructor|apply Forall_nil].
Qed.
(** C258.  In a tuple an item that is no number, a column for instance, is dropped, and so are items after the third: GET_VALUE(x, (0, n)) is GET_VALUE(x, 0). *)
Theorem get_value_tuple_refuted : forall V (at_path : text -> V -> V), exists ks ks', In (Tuple [Some (Int 0); None]) ks /\ (forall p, ~ path (Tuple [Some (Int 0); None]) p) /\
  Forall (fun k => exists p, path k p) ks' /\ forall e c, compile V (Get e ks) = Ok c -> compile V (Get e ks') = Ok c.
Proof.
  intros V at_path. exists [Tuple [Some (Int 0); None]], [Const (Int 0)]. split; [left; reflexivity|]. split; [intros p H; inversion H|]. split; [apply Forall_cons; [eexists; apply (P_number (Int 0)); constructor|apply Forall_nil]|].
  intros e c H. exact H.
Qed.
Print Assumptions get_value_tuple_refuted.

(** C71, C72: memory tables and life cycle of the script engine. *)
From Verif Require Import Base Agg_Model Json_Proofs Api_Model Api_Spec.

Section Props.
Variables Row D : Type.
Notation engine := (engine Row D).

Definition call_of (e : event Row) : call Row :=
  match e with EPush n l => Push n (Rows l) | EGet n => Get n | EPop n => Pop n end.
Definition answer_of (a : option (list Row)) : answer Row := match a with None => Nothing | Some l => Datas l end.

Lemma prefix_eqb : forall p a b, text_eqb (p ++ a) (p ++ b) = text_eqb a b.
Proof. induction p as [|c p IH]; intros a b; [reflexivity|]. cbn [app text_eqb]. rewrite N.eqb_refl. apply IH. Qed.

Lemma pair_eq : forall (A B : Type) (a c : A) (b d : B), (a, b) = (c, d) -> a = c /\ b = d.
Proof. intros. split; congruence. Qed.

Definition live (e : engine) : Prop := (has_config e = true \/ has_manager e = true) /\ (assoc (t "--") (dbs e) <> None \/ assoc (t "--") (handles e) <> None).

Lemma database_live : forall e, live e -> exists e' d, get_database e (t "--") = Ok (e', d) /\ live e' /\ store e' = store e /\ has_manager e' = true.
Proof.
  intros e [C H].
  assert (U : exists e1, setup e = Ok e1 /\ has_manager e1 = true /\ dbs e1 = dbs e /\ handles e1 = handles e /\ store e1 = store e).
  { unfold setup. destruct (has_manager e) eqn:HM; [exists e; auto|]. destruct (has_config e); [|destruct C; discriminate].
    eexists. split; [reflexivity|]. auto. }
  destruct U as [e1 [U [M1 [D1 [H1 S1]]]]]. unfold get_database. rewrite U. cbn [bind].
  change (match t "--" with [] => t "--" | _ :: _ => t "--" end) with (t "--"). rewrite D1, H1.
  destruct (assoc (t "--") (handles e)) as [h|] eqn:A.
  - exists e1, h. split; [reflexivity|]. split; [|split; [exact S1|exact M1]]. split; [right; exact M1|right; congruence].
  - destruct H as [H|H]; [|congruence]. destruct (assoc (t "--") (dbs e)) as [c|] eqn:B; [|congruence].
    eexists. exists c. split; [reflexivity|]. split; [|split; [exact S1|exact M1]]. split; [right; exact M1|left; cbn [dbs]; rewrite ?D1, B; discriminate].
Qed.

(** C71: a new engine answers every sequence of push, get and pop on memory tables with exactly the rows the history says: what was pushed
    to the table since it was last popped. *)
Theorem memory_tables : forall (databases : list (text * D)) cs, assoc (t "--") databases <> None ->
  snd (program (map call_of cs) (new_engine Row databases)) = map answer_of (returned [] cs).
Proof.
  intros databases cs H.
  assert (G : forall cs h (e : engine), live e -> (has_manager e = false -> store e = []) -> (forall n, rows_of e n = content n h) ->
              snd (program (map call_of cs) e) = map answer_of (returned h cs)).
  { clear. induction cs as [|c cs IH]; intros h e L M R; [reflexivity|]. cbn [map program returned].
    destruct (step (call_of c) e) as [e' a] eqn:S.
    assert (X : live e' /\ (has_manager e' = false -> store e' = []) /\ (forall n, rows_of e' n = content n (c :: h)) /\
      a = answer_of (match c with EPush _ _ => None | EGet n => Some (content n h) | EPop n => Some (content n h) end)).
    { destruct (database_live _ L) as [e1 [d [GD [L1 [S1 M1]]]]].
      assert (R1 : forall n, rows_of e1 n = content n h) by (intro n; rewrite <- R; unfold rows_of; rewrite S1; reflexivity).
      destruct c as [n l|n|n]; cbn [call_of step] in S.
      - unfold push_memory_datas in S. rewrite GD in S. cbn [bind fst] in S. apply pair_eq in S. destruct S as [<- <-]. split; [exact L1|]. split; [cbn; congruence|]. split; [|reflexivity].
        intro m. unfold rows_of, with_store. cbn [store]. rewrite assoc_dict_set, (prefix_eqb (t "--.") m n). cbn [content].
        destruct (text_eqb m n) eqn:E; [|exact (R1 m)]. apply text_eqb_spec in E. subst m. rewrite <- R1. reflexivity.
      - unfold get_memory_datas in S. destruct (has_manager e) eqn:HM; cbn [negb] in S.
        + rewrite GD in S. cbn [bind fst] in S. injection S as <- <-. split; [exact L1|]. split; [congruence|]. split; [exact R1|]. cbn [answer_of]. rewrite R1. reflexivity.
        + injection S as <- <-. split; [exact L|]. split; [exact (fun _ => M eq_refl)|]. split; [exact R|]. cbn [answer_of]. rewrite <- R. unfold rows_of. rewrite (M eq_refl). reflexivity.
      - unfold pop_memory_datas in S. destruct (has_manager e) eqn:HM; cbn [negb] in S.
        + rewrite GD in S. cbn [bind fst] in S. cbv zeta in S. apply pair_eq in S. destruct S as [<- <-]. split; [exact L1|]. split; [cbn; congruence|]. split; [|cbn [answer_of]; rewrite R1; reflexivity].
          intro m. unfold rows_of, with_store. cbn [store]. rewrite assoc_dict_set, (prefix_eqb (t "--.") m n). cbn [content].
          destruct (text_eqb m n); [reflexivity|exact (R1 m)].
        + injection S as <- <-. split; [exact L|]. split; [exact (fun _ => M eq_refl)|]. split.
          * intro m. cbn [content]. rewrite <- R. unfold rows_of. rewrite (M eq_refl). cbn [assoc]. destruct (text_eqb m n); reflexivity.
          * cbn [answer_of]. rewrite <- R. unfold rows_of. rewrite (M eq_refl). reflexivity. }
    destruct X as [L' [M' [R' A']]]. specialize (IH (c :: h) e' L' M' R').
    destruct (program (map call_of cs) e') as [e2 l2]. cbn [snd] in *. rewrite IH, A'. reflexivity. }
  apply G.
  - split; [left; reflexivity|left; exact H].
  - reflexivity.
  - reflexivity.
Qed.

(** One row may be given without a list. *)
Theorem push_one_row : forall (e : engine) n r, push_memory_datas e n (OneRow r) = push_memory_datas e n (Rows [r]).
Proof. reflexivity. Qed.

(** C72: after close nothing but reading (empty) memory tables and closing again succeeds, whatever was done before, *)
Theorem closed_engine : forall cs (e : engine) c,
  let e' := fst (program (cs ++ [Close]) e) in
  match snd (step c e') with
  | Failed x => x = AttributeError /\ (c = Touch \/ exists n d, c = Push n d)
  | Datas l => l = []
  | Nothing => c = Close
  end /\ has_manager (fst (step c e')) = false.
Proof.
  intros cs e c e'.
  assert (E : has_config e' = false /\ has_manager e' = false).
  { unfold e'. clear. revert e. induction cs as [|a cs IH]; intro e; cbn [app program].
    - split; reflexivity.
    - destruct (step a e) as [e1 a1]. specialize (IH e1). destruct (program (cs ++ [Close]) e1). exact IH. }
  destruct E as [E1 E2]. destruct c; cbn [step]; unfold push_memory_datas, get_memory_datas, pop_memory_datas, touch, get_database, setup; rewrite ?E2, ?E1;
    cbn [negb bind fst snd]; try (split; [|exact E2]); auto.
  split; [reflexivity|right; eauto].
Qed.
(** and closing twice is closing once. *)
Theorem close_twice : forall e : engine, close (close e) = close e.
Proof. reflexivity. Qed.

(** The first use of a database fixes its configuration; later changes of the session's configuration are not seen. *)
Theorem database_first_use : forall (e : engine) db c, has_manager e = true -> db <> [] -> assoc db (handles e) = None -> assoc db (dbs e) = Some c ->
  exists e', get_database e db = Ok (e', c).
Proof.
  intros e db c M N H A. unfold get_database, setup. rewrite M. cbn [bind]. destruct db as [|x db]; [congruence|]. cbv zeta. rewrite H, A. eexists. reflexivity.
Qed.
Theorem database_kept : forall (e : engine) db h d, has_manager e = true -> db <> [] -> assoc db (handles e) = Some h ->
  get_database {| has_config := has_config e; has_manager := has_manager e; dbs := d; handles := handles e; store := store e |} db =
  Ok ({| has_config := has_config e; has_manager := has_manager e; dbs := d; handles := handles e; store := store e |}, h).
Proof.
  intros e db h d M N H. unfold get_database, setup. cbn [has_manager]. rewrite M. cbn [bind]. destruct db; [congruence|]. cbv zeta. cbn [handles]. rewrite H. reflexivity.
Qed.
End Props.

Theorem database_current_refuted : exists (e : engine nat nat) e1 c1 c2 d, get_database e (t "db") = Ok (e1, c1) /\
  assoc (t "db") d = Some c2 /\ c1 <> c2 /\
  exists e2, get_database {| has_config := has_config e1; has_manager := has_manager e1; dbs := d; handles := handles e1; store := store e1 |} (t "db") = Ok (e2, c1).
Proof.
  exists (new_engine nat [(t "db", 1%nat)]). eexists. exists 1%nat, 2%nat, [(t "db", 2%nat)].
  split; [reflexivity|]. split; [reflexivity|]. split; [discriminate|]. eexists. reflexivity.
Qed.

(** C71: pushing through a context or through the function of the module always fails. *)
Theorem push_elsewhere_refuted : forall Row D (e : engine Row D) n d,
  context_push_memory_datas e n d = Err AttributeError /\ module_push_memory_datas e n d = Err AttributeError.
Proof. intros. split; reflexivity. Qed.

(** C72: terminal() ends the running statement exactly when the calling thread has entered a context before and left it; *)
Theorem terminal_works_iff : forall th, terminal th true true = Ok Terminated <-> th = Some None.
Proof. intros [[c|]|]; cbn; split; intro H; try discriminate; reflexivity. Qed.
(** called from a thread of its own, or inside a context, it fails. *)
Theorem terminal_refuted : forall up running c, terminal None up running = Err AttributeError /\ terminal (Some (Some c)) up running = Err AttributeError.
Proof. intros. split; reflexivity. Qed.
Theorem context_terminal_works : context_terminal true = Terminated.
Proof. reflexivity. Qed.

Example history : snd (program (map (@call_of nat) [EPush (t "a") [1; 2]%nat; EGet (t "a"); EPush (t "b") [9]%nat; EPush (t "a") [3]%nat; EPop (t "a"); EGet (t "a"); EGet (t "b")])
                         (new_engine nat [(t "--", 0%nat)]))
  = [Nothing; Datas [1; 2]%nat; Nothing; Nothing; Datas [1; 2; 3]%nat; Datas []; Datas [9]%nat].
Proof. reflexivity. Qed.

Print Assumptions memory_tables.
Print Assumptions closed_engine.
Print Assumptions database_kept.
Print Assumptions terminal_works_iff.

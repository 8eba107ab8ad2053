(** Loading configuration files: the recursion over "extends", and what merging a list of configurations gives. *)
From Verif Require Import Base Agg_Model Json_Proofs Config_Model Config_Spec Config_Props Config_Merge Config_Sets Load_Spec Load_Model.
From Coq Require Import Relations Transitive_Closure.
Open Scope nat_scope.

(** ** Merging a list of configurations *)
Fixpoint merges (c : conf) (l : list conf) : res conf := match l with [] => Ok c | v :: r => do c' <- merge_config c v; merges c' r end.
Lemma merges_app : forall l1 l2 c, merges c (l1 ++ l2) = (do c' <- merges c l1; merges c' l2).
Proof. induction l1 as [|v l1 IH]; intros l2 c; [reflexivity|]. cbn [app merges]. destruct (merge_config c v); [apply IH|reflexivity]. Qed.

Lemma dict_update_nodup : forall w d, NoDup (map fst d) -> NoDup (map fst (dict_update d w)).
Proof. unfold dict_update. induction w as [|e w IH]; intros d N; [exact N|]. cbn [fold_left]. apply IH, dict_set_nodup, N. Qed.
Lemma unique_find : forall l e n, Forall record_ok l -> NoDup (record_names l) -> In e l -> has_name n e = true -> find (has_name n) l = Some e.
Proof.
  induction l as [|a l IH]; intros e n F N I H; [destruct I|]. inversion F as [|? ? R F']; subst. destruct R as (d & m & -> & Hd).
  rewrite (record_names_cons d m l Hd) in N. inversion N as [|? ? Nin N']; subst. cbn [find]. rewrite (has_name_rec d m n Hd). destruct (text_eqb m n) eqn:E.
  - apply text_eqb_spec in E. subst m. destruct I as [<-|I]; [reflexivity|]. exfalso. apply Nin, names_find; [exact F'|]. rewrite (IH e n F' N' I H). discriminate.
  - destruct I as [<-|I]; [rewrite (has_name_rec d m n Hd) in H; congruence|]. apply IH; assumption.
Qed.

Lemma mem_false : forall k l, ~ In k l -> mem k l = false.
Proof. intros k l H. destruct (mem k l) eqn:E; [|reflexivity]. exfalso. apply H, mem_In, E. Qed.
Lemma merge_step : forall c v c', proper c -> proper v -> merge_config c v = Ok c' ->
  proper c' /\ forall path, setting path -> read c' path = match read v path with Some x => Some x | None => read c path end.
Proof.
  intros c v c' (Nc & Sc & Dc) (Nv & Sv & Dv) M.
  assert (SEC : forall k, In k merge_sections -> match assoc k c' with None => True | Some (CDict d) => NoDup (map fst d) | _ => False end /\
    forall n, read c' [k; n] = match read v [k; n] with Some x => Some x | None => read c [k; n] end).
  { intros k I. specialize (Sc k I). specialize (Sv k I). pose proof (merge_config_at v c c' k Nv M) as A. unfold read. cbn [look].
    destruct (assoc k v) as [x|].
    - destruct x as [| | |w|]; try contradiction. destruct A as (c1 & c2 & H1 & H2 & H3). unfold merge_key in H2. rewrite (proj2 (mem_In _ _) I), H1 in H2.
      destruct (assoc k c) as [y|].
      + destruct y as [| | |d|]; try contradiction. injection H2 as <-. rewrite H3, assoc_dict_set, text_eqb_refl. split; [apply dict_update_nodup, Sc|].
        intro n. cbn [look]. rewrite dict_update_assoc by exact Sv. destruct (assoc n w); reflexivity.
      + injection H2 as <-. rewrite H3, assoc_dict_set, text_eqb_refl. split; [exact Sv|]. intro n. destruct (assoc n w); reflexivity.
    - rewrite A. split; [exact Sc|reflexivity]. }
  assert (DB : match assoc (t "databases") c' with
     | None => True
     | Some (CList l) => Forall record_ok l /\ NoDup (record_names l) /\ Forall (fun e => match e with CDict w => NoDup (map fst w) | _ => True end) l
     | _ => False end /\ forall n f, read c' [t "databases"; n; f] = match read v [t "databases"; n; f] with Some x => Some x | None => read c [t "databases"; n; f] end).
  { pose proof (merge_config_at v c c' (t "databases") Nv M) as A. destruct (assoc (t "databases") v) as [x|] eqn:Ev.
    - destruct x as [| | | |w]; try contradiction. destruct A as (c1 & c2 & H1 & H2 & H3). destruct (assoc (t "databases") c) as [y|] eqn:Ec.
      + destruct y as [| | | |l]; try contradiction. destruct Dc as (F1 & N1 & K1). destruct Dv as (F2 & N2 & K2).
        destruct (merge_databases v c c' l w Nv M Ec Ev F1 F2 N1 N2 K2) as ((l0 & E0 & F0) & U0 & R0).
        split; [|exact R0]. rewrite E0. specialize (U0 l0 E0). split; [exact F0|]. split; [exact U0|].
        unfold merge_key in H2. change (mem (t "databases") merge_sections) with false in H2. change (mem (t "databases") [t "databases"; t "caches"]) with true in H2. cbn iota in H2.
        rewrite H1 in H2. destruct (merge_named_spec w l [] F2 F1 (Forall_nil _)) as (l' & E' & F' & N' & _ & FF); [rewrite app_nil_r; exact N1|exact N2|intros n _ []|exact K2|].
        rewrite E' in H2. cbn [bind] in H2. injection H2 as <-. rewrite assoc_dict_set, text_eqb_refl in H3. rewrite E0 in H3. injection H3 as ->.
        apply Forall_forall. intros e I. rewrite Forall_forall in F0. destruct (F0 e I) as (d & n & -> & Hd).
        assert (FE : find (has_name n) l' = Some (CDict d)) by (apply unique_find; [exact F'|exact N'|exact I|cbn [has_name]; rewrite Hd; apply text_eqb_refl]).
        rewrite FF, app_nil_r in FE. rewrite Forall_forall in K1, K2.
        destruct (find (has_name n) l) as [e1|] eqn:Q1; [|cbn [merged_record] in FE; apply find_some in FE; exact (K2 _ (proj1 FE))].
        destruct (find_has_name_in _ _ _ Q1) as (d1 & -> & _). apply find_some in Q1. specialize (K1 _ (proj1 Q1)). cbn in K1.
        destruct (find (has_name n) w) as [e2|] eqn:Q2; cbn [merged_record] in FE.
        * destruct (find_has_name_in _ _ _ Q2) as (d2 & -> & _). injection FE as <-. apply dict_update_nodup, K1.
        * injection FE as <-. exact K1.
      + unfold merge_key in H2. change (mem (t "databases") merge_sections) with false in H2. change (mem (t "databases") [t "databases"; t "caches"]) with true in H2. cbn iota in H2.
        rewrite H1 in H2. injection H2 as <-. rewrite assoc_dict_set, text_eqb_refl in H3. split; [rewrite H3; exact Dv|]. intros n f. unfold read. cbn [look]. rewrite H3, Ec, Ev.
        match goal with |- ?X = match ?X with _ => _ end => destruct X; reflexivity end.
    - split; [rewrite A; exact Dc|]. intros n f. unfold read. cbn [look]. rewrite A, Ev. reflexivity. }
  split.
  - split; [exact (merge_config_nodup v c c' Nc M)|]. split; [intros k I; apply SEC, I|apply DB].
  - intros path [(k & -> & P)|[(k & n & -> & I)|(n & f & ->)]]; [|apply SEC, I|apply DB].
    rewrite (merge_plain v c c' k [] Nv M P). unfold read. cbn [look]. destruct (assoc k v); reflexivity.
Qed.
Lemma fold_latest : forall path l o, fold_left (fun o c => match read c path with Some v => Some v | None => o end) l o =
  match latest path l with Some v => Some v | None => o end.
Proof.
  intros path. unfold latest. induction l as [|c l IH]; intro o; [reflexivity|]. cbn [fold_left]. rewrite IH, (IH (match read c path with Some v => Some v | None => None end)).
  destruct (fold_left _ l None); [reflexivity|]. destruct (read c path); reflexivity.
Qed.
Lemma merges_latest : forall l c c', proper c -> Forall proper l -> merges c l = Ok c' ->
  proper c' /\ forall path, setting path -> read c' path = match latest path l with Some x => Some x | None => read c path end.
Proof.
  induction l as [|v l IH]; intros c c' P F M; cbn [merges] in M; [injection M as <-; split; [exact P|reflexivity]|].
  inversion F as [|? ? Pv F']; subst. destruct (merge_config c v) as [c1|] eqn:E; [|discriminate M]. cbn [bind] in M.
  destruct (merge_step c v c1 P Pv E) as [P1 R1]. destruct (IH c1 c' P1 F' M) as [P2 R2]. split; [exact P2|].
  intros path S. rewrite (R2 path S), (R1 path S).
  assert (LC : latest path (v :: l) = match latest path l with Some x => Some x | None => read v path end).
  { unfold latest at 1. cbn [fold_left]. rewrite (fold_latest path l). destruct (latest path l); [reflexivity|]. destruct (read v path); reflexivity. }
  rewrite LC.
  destruct (latest path l); [reflexivity|]. destruct (read v path); reflexivity.
Qed.

(** Lists that are concatenated. *)
Lemma merge_items : forall k c v c', k = t "states" \/ k = t "executes" -> NoDup (map fst v) -> merge_config c v = Ok c' ->
  (match assoc k c with None | Some (CList _) => True | _ => False end) ->
  (match assoc k c' with None | Some (CList _) => True | _ => False end) /\ items k c' = items k c ++ items k v.
Proof.
  intros k c v c' K N M L. pose proof (merge_config_at v c c' k N M) as A. unfold items. destruct (assoc k v) as [x|]; [|rewrite A, app_nil_r; split; [exact L|reflexivity]].
  destruct A as (c1 & c2 & H1 & H2 & H3). rewrite H3. unfold merge_key in H2.
  assert (E1 : mem k merge_sections = false) by (destruct K as [->| ->]; reflexivity). assert (E2 : mem k [t "databases"; t "caches"] = false) by (destruct K as [->| ->]; reflexivity).
  assert (E3 : text_eqb k (t "pipelines") = false) by (destruct K as [->| ->]; reflexivity). assert (E4 : mem k [t "states"; t "executes"] = true) by (destruct K as [->| ->]; reflexivity).
  rewrite E1, E2, E3, E4, H1 in H2. destruct (assoc k c) as [[| | | |[|y l]]|]; try contradiction; injection H2 as <-; rewrite assoc_dict_set, text_eqb_refl; (split; [exact I|]); destruct x; reflexivity.
Qed.
Lemma merges_items : forall k l c c', k = t "states" \/ k = t "executes" -> Forall (fun v => NoDup (map fst v)) l -> merges c l = Ok c' ->
  (match assoc k c with None | Some (CList _) => True | _ => False end) ->
  (match assoc k c' with None | Some (CList _) => True | _ => False end) /\ items k c' = items k c ++ flat_map (items k) l.
Proof.
  intros k. induction l as [|v l IH]; intros c c' K F M L; cbn [merges] in M; [injection M as <-; split; [exact L|cbn; rewrite app_nil_r; reflexivity]|].
  inversion F as [|? ? Nv F']; subst. destruct (merge_config c v) as [c1|] eqn:E; [|discriminate M]. cbn [bind] in M.
  destruct (merge_items k c v c1 K Nv E L) as [L1 I1]. destruct (IH c1 c' K F' M L1) as [L2 I2]. split; [exact L2|]. cbn [flat_map]. rewrite I2, I1, app_assoc. reflexivity.
Qed.

(** Pipelines: lists of pipelines, each a list of steps, are concatenated; one pipeline, a list of texts, counts as a list of one. *)
Lemma merge_pipelines : forall c v c' a b, NoDup (map fst v) -> merge_config c v = Ok c' ->
  assoc (t "pipelines") c = Some (CList a) -> assoc (t "pipelines") v = Some (CList b) ->
  (forall s r, a <> CStr s :: r) ->
  assoc (t "pipelines") c' = Some (CList (a ++ match b with CStr _ :: _ => [CList b] | _ => b end)).
Proof.
  intros c v c' a b N M Ha Hb NS. pose proof (merge_config_at v c c' (t "pipelines") N M) as A. rewrite Hb in A. destruct A as (c1 & c2 & H1 & H2 & H3). rewrite H3.
  unfold merge_key in H2. change (mem (t "pipelines") merge_sections) with false in H2. change (mem (t "pipelines") [t "databases"; t "caches"]) with false in H2.
  rewrite text_eqb_refl, H1, Ha in H2. cbn iota in H2.
  assert (PA : (if truthy (CList a) then as_pipelines (CList a) else Ok []) = Ok a).
  { destruct a as [|x a]; [reflexivity|]. cbn [truthy as_pipelines]. destruct x; try reflexivity. exfalso. exact (NS _ _ eq_refl). }
  assert (PB : (if truthy (CList b) then as_pipelines (CList b) else Ok []) = Ok (match b with CStr _ :: _ => [CList b] | _ => b end)).
  { destruct b as [|x b]; [reflexivity|]. cbn [truthy as_pipelines]. destruct x; reflexivity. }
  rewrite PA, PB in H2. cbn [bind] in H2. assert (E : forall x y : conf, Ok x = Ok y -> x = y) by congruence. apply E in H2. subst c2. rewrite assoc_dict_set, text_eqb_refl. reflexivity.
Qed.

(** ** The recursion *)
Section Recursion.
Variable default : conf.
Variable content : text -> option conf.
Notation load_config := (load_config default content).
Notation chain := (chain content). Notation chains := (chains content). Notation extends := (extends content).

Definition load_list (fuel : nat) := fix all (l : list cval) (c : conf) {struct l} : option (res conf) :=
  match l with
  | [] => Some (Ok c)
  | v :: r =>
    match (match v with CStr n => load_config fuel (Some n) c | CNull => load_config fuel None c | _ => Some (Err TypeError) end) with
    | Some (Ok c') => all r c'
    | x => x
    end
  end.
Definition listed (f : conf) : list cval := match assoc t_ext f with None => [] | Some (CList l) => l | Some v => [v] end.
Lemma load_file : forall fuel n c, load_config (S fuel) (Some n) c =
  match content n with
  | None => Some (Err OtherError)
  | Some f => match load_list fuel (listed f) c with Some (Ok c') => Some (merge_config c' (dict_del t_ext f)) | x => x end
  end.
Proof. intros fuel n c. cbn [Load_Model.load_config]. destruct (content n) as [f|]; reflexivity. Qed.
Lemma load_self : forall fuel c, load_config (S fuel) None c =
  match load_list fuel (listed (drop_falsy default c)) default with Some (Ok c') => Some (merge_config c' (dict_del t_ext (drop_falsy default c))) | x => x end.
Proof. reflexivity. Qed.
Lemma settings_del : forall f, dict_del t_ext f = settings f.
Proof. intro f. unfold dict_del, settings, t_ext. apply filter_ext. intros [k v]. cbn [fst]. rewrite text_eqb_sym. reflexivity. Qed.
Lemma listed_names : forall f es, names_in (assoc (t "extends") f) es -> listed f = map CStr es.
Proof.
  intros f es H. unfold listed, t_ext. unfold names_in in H. destruct (assoc (t "extends") f) as [v|]; [|subst; reflexivity].
  destruct v as [|x| | |l]; try (destruct H as (n0 & Hn & ->); discriminate Hn); [|exact H].
  destruct H as (n0 & Hn & ->). injection Hn as ->. reflexivity.
Qed.

Scheme chain_mut := Induction for Load_Spec.chain Sort Prop with chains_mut := Induction for Load_Spec.chains Sort Prop.
(** Files without circles are loaded as the merge of the chain. *)
Lemma chains_load : forall es l, chains es l -> exists N, forall fuel c, N <= fuel -> load_list fuel (map CStr es) c = Some (merges c l).
Proof.
  apply (chains_mut content (fun n l _ => exists N, forall fuel c, N <= fuel -> load_config fuel (Some n) c = Some (merges c l))
    (fun es l _ => exists N, forall fuel c, N <= fuel -> load_list fuel (map CStr es) c = Some (merges c l))).
  - intros n f es l Hf He _ [N IH]. exists (S N). intros [|fuel] c L; [lia|]. rewrite load_file, Hf, (listed_names f es He), IH by lia.
    rewrite merges_app. destruct (merges c l) as [c'|]; [|reflexivity]. cbn [bind merges]. rewrite settings_del. destruct (merge_config c' (settings f)); reflexivity.
  - exists 0. reflexivity.
  - intros n r l1 l2 _ [N1 IH1] _ [N2 IH2]. exists (max N1 N2). intros fuel c L. change (load_list fuel (map CStr (n :: r)) c) with (match load_config fuel (Some n) c with Some (Ok c1) => load_list fuel (map CStr r) c1 | x => x end). rewrite IH1 by lia. rewrite merges_app.
    destruct (merges c l1) as [c'|]; [|reflexivity]. cbn [bind]. apply IH2. lia.
Qed.
Lemma chain_load : forall n l, chain n l -> exists N, forall fuel c, N <= fuel -> load_config fuel (Some n) c = Some (merges c l).
Proof.
  intros n l H. assert (CS : chains [n] (l ++ [])) by (constructor; [exact H|constructor]). destruct (chains_load _ _ CS) as [N IH]. exists N. intros fuel c L.
  specialize (IH fuel c L). rewrite app_nil_r in IH. cbn [map load_list] in IH. cbn in IH. destruct (load_config fuel (Some n) c) as [[c'|]|]; exact IH.
Qed.
(** What is loaded is a chain. *)
Definition only_texts : Prop := forall n f, content n = Some f -> exists es, names_in (assoc (t "extends") f) es.
Lemma load_chain : only_texts -> forall fuel, (forall n c c', load_config fuel (Some n) c = Some (Ok c') -> exists l, chain n l /\ merges c l = Ok c') /\
  (forall es c c', load_list fuel (map CStr es) c = Some (Ok c') -> exists l, chains es l /\ merges c l = Ok c').
Proof.
  intros OT. induction fuel as [|fuel [IH1 IH2]].
  - split; [discriminate|]. intros [|n es] c c' H; [|discriminate H]. injection H as <-. exists []. split; [constructor|reflexivity].
  - assert (P : forall n c c', load_config (S fuel) (Some n) c = Some (Ok c') -> exists l, chain n l /\ merges c l = Ok c').
    { intros n c c' H. rewrite load_file in H. destruct (content n) as [f|] eqn:Hf; [|discriminate H]. destruct (OT n f Hf) as [es He]. rewrite (listed_names f es He) in H.
      destruct (load_list fuel (map CStr es) c) as [[c1|]|] eqn:E; try discriminate H. destruct (IH2 es c c1 E) as (l & C & M). injection H as H.
      exists (l ++ [settings f]). split; [econstructor; eassumption|]. rewrite merges_app, M. cbn [bind merges]. rewrite <- settings_del, H. reflexivity. }
    split; [exact P|]. induction es as [|n es IHes]; intros c c' H.
    + injection H as <-. exists []. split; [constructor|reflexivity].
    + change (load_list (S fuel) (map CStr (n :: es)) c) with (match load_config (S fuel) (Some n) c with Some (Ok c1) => load_list (S fuel) (map CStr es) c1 | x => x end) in H. destruct (load_config (S fuel) (Some n) c) as [[c1|]|] eqn:E; try discriminate H.
      destruct (P n c c1 E) as (l1 & C1 & M1). destruct (IHes c1 c' H) as (l2 & C2 & M2). exists (l1 ++ l2). split; [constructor; assumption|]. rewrite merges_app, M1. exact M2.
Qed.
Lemma names_in_det : forall v es es', names_in v es -> names_in v es' -> es = es'.
Proof.
  intros v es es' H H'. assert (IM : forall a b : list text, map CStr a = map CStr b -> a = b).
  { induction a as [|x a IH]; intros [|y b] E; try discriminate E; [reflexivity|]. injection E as <- E. f_equal. auto. }
  unfold names_in in *. destruct v as [[| | | |l]|]; try (destruct H as (n1 & Hn & ->), H' as (n2 & Hn' & ->); congruence); [apply IM; congruence|congruence].
Qed.
Lemma chain_acc : forall n l, chain n l -> Acc (fun m n => extends n m) n.
Proof.
  apply (chain_mut content (fun n _ _ => Acc (fun m n => extends n m) n) (fun es _ _ => forall n, In n es -> Acc (fun m n => extends n m) n)).
  - intros n f es l Hf He _ IH. constructor. intros m (f' & es' & Hf' & He' & I). rewrite Hf in Hf'. injection Hf' as <-. rewrite (names_in_det _ _ _ He' He) in I. apply IH, I.
  - intros n [].
  - intros n r l1 l2 _ IH1 _ IH2 m [<-|I]; [exact IH1|apply IH2, I].
Qed.
Lemma acc_no_circle : forall n, Acc (fun m n => extends n m) n -> ~ clos_trans _ extends n n.
Proof.
  intros n A. assert (A' : Acc (clos_trans _ (fun m n => extends n m)) n) by (apply Acc_clos_trans, A).
  assert (T : forall a b, clos_trans _ extends a b -> clos_trans _ (fun m n => extends n m) b a).
  { induction 1 as [a b H|a b c _ IH1 _ IH2]; [apply t_step; exact H|exact (t_trans _ _ _ _ _ IH2 IH1)]. }
  intro C. apply T in C. clear A. induction A' as [n _ IH]. exact (IH n C C).
Qed.
Lemma chains_det : forall es l l', chains es l -> chains es l' -> l = l'.
Proof.
  intros es l l' H. revert l'. revert es l H. apply (chains_mut content (fun n l _ => forall l', chain n l' -> l = l') (fun es l _ => forall l', chains es l' -> l = l')).
  - intros n f es l Hf He _ IH l' H'. inversion H' as [n0 f' es' l0 Hf' He' Hc]; subst. rewrite Hf in Hf'. injection Hf' as <-. rewrite (names_in_det _ _ _ He' He) in Hc. rewrite (IH _ Hc). reflexivity.
  - intros l' H'. inversion H'. reflexivity.
  - intros n r l1 l2 _ IH1 _ IH2 l' H'. inversion H' as [|n0 r0 k1 k2 H1 H2]; subst. rewrite (IH1 _ H1), (IH2 _ H2). reflexivity.
Qed.
(** Readable files none of which extends itself form a chain. *)
Lemma text_dec : forall a b : text, {a = b} + {a <> b}.
Proof. intros a b. destruct (text_eqb a b) eqn:E; [left; apply text_eqb_spec, E|right; apply text_eqb_neq, E]. Qed.
Lemma remove_shorter : forall (m : text) l, In m l -> length (remove text_dec m l) < length l.
Proof.
  intros m l. assert (LE : forall l, length (remove text_dec m l) <= length l) by (induction l0 as [|a l0 IH]; [constructor|]; cbn [remove length]; destruct (text_dec m a); cbn [length]; lia).
  induction l as [|a l IH]; intro I; [destruct I|]. cbn [remove length]. destruct (text_dec m a) as [->|Ne]; [specialize (LE l); lia|]. cbn [length]. destruct I as [->|I]; [congruence|]. specialize (IH I). lia.
Qed.
Lemma chain_exists : only_texts -> forall U n, (forall m, clos_trans _ extends n m -> In m U) -> (forall m, clos_trans _ extends n m -> ~ clos_trans _ extends m m) ->
  (forall m, m = n \/ clos_trans _ extends n m -> content m <> None) -> exists l, chain n l.
Proof.
  intros OT U. remember (length U) as k eqn:EK. revert U EK. induction k as [k IH] using lt_wf_ind. intros U -> n RU AC RD.
  destruct (content n) as [f|] eqn:Hf; [|exfalso; exact (RD n (or_introl eq_refl) Hf)]. destruct (OT n f Hf) as [es He].
  assert (CS : exists l, chains es l).
  { assert (G : forall r, (forall m, In m r -> extends n m) -> exists l, chains r l).
    { induction r as [|m r IHr]; intro S; [exists []; constructor|]. destruct IHr as [l2 H2]; [intros; apply S; right; assumption|].
      assert (X : extends n m) by (apply S; left; reflexivity).
      assert (In m U) as IM by (apply RU, t_step, X).
      destruct (IH (length (remove text_dec m U)) (remove_shorter m U IM) (remove text_dec m U) eq_refl m) as [l1 H1].
      - intros x Hx. apply in_in_remove; [intros ->; exact (AC m (t_step _ _ _ _ X) Hx)|]. apply RU. exact (t_trans _ _ _ _ _ (t_step _ _ _ _ X) Hx).
      - intros x Hx. apply AC. exact (t_trans _ _ _ _ _ (t_step _ _ _ _ X) Hx).
      - intros x [->|Hx]; apply RD; right; [apply t_step, X|exact (t_trans _ _ _ _ _ (t_step _ _ _ _ X) Hx)].
      - exists (l1 ++ l2). constructor; assumption. }
    apply G. intros m I. exists f, es. auto. }
  destruct CS as [l Hl]. exists (l ++ [settings f]). econstructor; eassumption.
Qed.
End Recursion.

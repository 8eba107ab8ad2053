(** Lemmas about the JSON model. *)
From Verif Require Import Base PyVal Utils_Model Utils_Spec Utils_Proofs Agg_Model Json_Model Json_Spec.
Open Scope nat_scope.

(** ** Paths *)

Lemma index_of_app : forall c a b, ~ In c a -> index_of c (a ++ b) = option_map (Nat.add (length a)) (index_of c b).
Proof.
  induction a as [|x a IH]; intros b H; cbn.
  - destruct (index_of c b); reflexivity.
  - destruct (N.eqb_spec x c) as [->|]; [exfalso; apply H; left; reflexivity|].
    rewrite IH by (intro; apply H; right; assumption). destruct (index_of c b); reflexivity.
Qed.
Lemma index_of_none : forall c a, ~ In c a -> index_of c a = None.
Proof. intros c a H. rewrite <- (app_nil_r a), index_of_app by exact H. reflexivity. Qed.

Lemma parse_fuel_nil : forall f, parse_fuel f [] = [].
Proof. destruct f; reflexivity. Qed.

(** The keys a path denotes. *)
Definition key_of (s : step) : key := match s with Name k => KName k | Idx n => KIdx n end.

(** The text without its leading dot. *)
Definition drop_dot (s : text) : text := match s with 46%N :: r => r | _ => s end.

Lemma lstrip_cons_id : forall sp c s, sp c = false -> lstrip sp (c :: s) = c :: s.
Proof. intros. cbn. rewrite H. reflexivity. Qed.

Lemma digits_chars : forall ds, digits ds -> Forall (fun c => c <> 46 /\ c <> 91 /\ c <> 93)%N ds.
Proof. intros ds [_ H]. eapply Forall_impl; [|exact H]. unfold digit. intros c Hc. cbn in Hc. lia. Qed.
Lemma not_in : forall (c : N) s, Forall (fun x => x <> c) s -> ~ In c s.
Proof. intros c s H I. rewrite Forall_forall in H. exact (H c I eq_refl). Qed.
Lemma clean_not_in : forall s, Forall (fun c => c <> 46 /\ c <> 91 /\ c <> 93)%N s ->
  ~ In 46%N s /\ ~ In 91%N s /\ ~ In 93%N s.
Proof. intros s H. repeat split; apply not_in; eapply Forall_impl; try exact H; cbn; intuition. Qed.

Lemma int_digits : forall ds, digits ds -> int_of_text ds = Ok (decval ds).
Proof. intros. apply int_of_text_literal, digits_literal. assumption. Qed.

Lemma bracket_digits : forall ds, digits ds -> bracket_key ds = KIdx (Z.to_nat (decval ds)).
Proof.
  intros ds H. unfold bracket_key. rewrite int_digits by exact H. destruct H as [N F].
  assert (isdigits ds = true) as ->; [|reflexivity].
  destruct ds as [|d ds]; [congruence|]. unfold isdigits. apply forallb_forall. rewrite Forall_forall in F.
  intros c I. apply is_digit_iff, F, I.
Qed.
Lemma bracket_quoted : forall k, bracket_key (34%N :: k ++ [34%N]) = KName k.
Proof.
  intros k. unfold bracket_key. change (isdigits (34%N :: k ++ [34%N])) with false. cbv iota.
  assert (last (34%N :: k ++ [34%N]) 0%N = 34%N) as -> by (rewrite app_comm_cons; apply last_last).
  change (N.eqb 34 34) with true. cbv iota. unfold unquote. cbn [tl]. rewrite removelast_last. reflexivity.
Qed.
(** A step is a dotted name, or a key between brackets. *)
Lemma step_text_cases : forall s x, step_text s x ->
  (exists k, s = Name k /\ plain k /\ x = 46%N :: k) \/ (exists b, x = 91%N :: b ++ [93%N] /\ ~ In 93%N b /\ bracket_key b = key_of s).
Proof.
  intros s x H. destruct H as [k Hk|ds Hd|k Hk Hs].
  - left. exists k. auto.
  - right. exists ds. split; [reflexivity|]. split; [apply clean_not_in, digits_chars, Hd|apply bracket_digits, Hd].
  - right. exists (34%N :: k ++ [34%N]). split; [reflexivity|]. split; [|apply bracket_quoted].
    intros [I|I]; [discriminate I|]. apply in_app_or in I. destruct I as [I|[I|[]]]; [contradiction|discriminate I].
Qed.

(** Every step's text ends in a character that is not a dot. *)
Lemma step_text_last : forall s x, step_text s x -> exists a c, x = a ++ [c] /\ is_dot c = false.
Proof.
  intros s x H. destruct (step_text_cases s x H) as [(k & -> & (Hk & Hc & _) & ->)|(b & -> & _)].
  - destruct (exists_last Hk) as (a & c & ->). exists (46%N :: a), c. split; [reflexivity|].
    apply Forall_app in Hc as [_ Hc]. inversion Hc as [|? ? E]; subst. unfold is_dot. apply N.eqb_neq. tauto.
  - exists (91%N :: b), 93%N. split; reflexivity.
Qed.
Lemma concat_last : forall s ts, Forall2 step_text s ts -> s <> [] ->
  exists a c, concat ts = a ++ [c] /\ is_dot c = false.
Proof.
  intros s ts H. induction H as [|s x ss ts Hx Hs IH]; intro N; [congruence|].
  destruct ss as [|s' ss].
  - inversion Hs; subst. cbn. rewrite app_nil_r. eapply step_text_last; eauto.
  - destruct IH as (a & c & E & D); [discriminate|]. exists (x ++ a), c. cbn. rewrite E, app_assoc. auto.
Qed.

Lemma strip_dots : forall s ts, Forall2 step_text s ts -> 
  strip is_dot (concat ts) = drop_dot (concat ts) /\ strip is_dot (drop_dot (concat ts)) = drop_dot (concat ts).
Proof.
  intros s ts H. destruct s as [|s ss]; [inversion H; split; reflexivity|].
  destruct (concat_last _ _ H) as (a & c & E & D); [discriminate|].
  assert (L : lstrip is_dot (concat ts) = drop_dot (concat ts) /\ lstrip is_dot (drop_dot (concat ts)) = drop_dot (concat ts)
              /\ exists a', drop_dot (concat ts) = a' ++ [c]).
  { inversion H as [|? x ? ts' Hx Hs]; subst. destruct (step_text_cases _ _ Hx) as [(k & -> & Hk & ->)|(b & -> & _)].
    - cbn [concat app drop_dot lstrip is_dot].
      destruct Hk as (K1 & K2 & _). destruct k as [|k0 k]; [congruence|].
      inversion K2 as [|? ? K0]; subst. assert (is_dot k0 = false) as Z by (apply N.eqb_neq; tauto).
      cbn [app]. change (is_dot 46) with true. cbn [lstrip]. rewrite Z. split; [reflexivity|]. split; [reflexivity|].
      cbn [concat app] in E. destruct a as [|a0 a]; [discriminate E|]. injection E as E1 E2. exists a. exact E2.
    - split; [reflexivity|]. split; [reflexivity|]. exists a. exact E. }
  destruct L as (L1 & L2 & a' & L3). unfold strip. rewrite L1, L2, L3, rev_app_distr. cbn [rev app].
  rewrite lstrip_cons_id by exact D. cbn [rev]. rewrite rev_involutive. auto.
Qed.

Lemma skipn_app_len : forall A (a b : list A) n, n = length a -> skipn n (a ++ b) = b.
Proof. intros. subst. rewrite skipn_app, skipn_all, Nat.sub_diag. reflexivity. Qed.
Lemma firstn_app_len : forall A (a b : list A) n, n = length a -> firstn n (a ++ b) = a.
Proof. intros. subst. rewrite firstn_app, firstn_all, Nat.sub_diag, firstn_O, app_nil_r. reflexivity. Qed.

Lemma drop_dot_len : forall s, length (drop_dot s) <= length s.
Proof. intros [|c s]; cbn; [lia|]. destruct c as [|p]; cbn; try lia. repeat (destruct p; cbn; try lia). Qed.

Definition prest (f : nat) (q : text) : list key := match q with [] => [] | _ => parse_fuel f q end.
Lemma rest_match : forall f q, prest f q = parse_fuel f q.
Proof. intros f [|c q]; [symmetry; apply parse_fuel_nil|reflexivity]. Qed.

Lemma parse_rendered : forall f s ts, Forall2 step_text s ts -> length (drop_dot (concat ts)) < f ->
  parse_fuel f (drop_dot (concat ts)) = map key_of s.
Proof.
  induction f as [|f IH]; intros s ts H L; [lia|].
  (* the bracket case *)
  assert (B : forall (pre ds : text) (key : key) (rest : list step) (ts' : list text),
     Forall (fun c => c <> 46 /\ c <> 91 /\ c <> 93)%N pre -> ~ In 93%N ds -> bracket_key ds = key -> Forall2 step_text rest ts' -> 
     length (drop_dot (concat ts')) < f ->
     parse_fuel (S f) (pre ++ 91%N :: ds ++ 93%N :: concat ts') =
     (match pre with [] => [] | _ => [KName pre] end) ++ key :: map key_of rest).
  { intros pre ds key rest ts' P D3 Dk F Lf.
    destruct (clean_not_in _ P) as (P1 & P2 & P3).
    set (q := pre ++ 91%N :: ds ++ 93%N :: concat ts').
    assert (I1 : index_of 91%N q = Some (length pre)).
    { unfold q. rewrite index_of_app by exact P2. cbn. f_equal. lia. }
    assert (I3 : index_of 93%N q = Some (length pre + S (length ds))).
    { unfold q. rewrite index_of_app by exact P3. cbn. rewrite index_of_app by exact D3. cbn. f_equal. lia. }
    assert (I2 : forall d, index_of 46%N q = Some (S d) -> (S d <? length pre) = false).
    { unfold q. intros d. rewrite index_of_app by exact P1. destruct (index_of 46%N _); cbn [option_map]; [|discriminate].
      intro E. assert (length pre <= S d) by (injection E as E; lia). apply Nat.ltb_ge. exact H0. }
    assert (Q : q <> []) by (unfold q; destruct pre; discriminate).
    assert (R : (if 0 <? length pre then [KName (firstn (length pre) q)] else []) ++
                (if length pre <? length pre + S (length ds)
                 then [bracket_key (firstn (length pre + S (length ds) - (length pre + 1)) (skipn (length pre + 1) q))] else []) ++
                prest f (strip is_dot (skipn (length pre + S (length ds) + 1) q)) =
                (match pre with [] => [] | _ => [KName pre] end) ++ key :: map key_of rest).
    { assert (Nat.ltb (length pre) (length pre + S (length ds)) = true) as -> by (apply Nat.ltb_lt; lia).
      assert (skipn (length pre + 1) q = ds ++ 93%N :: concat ts') as ->.
      { unfold q. change (91%N :: ds ++ 93%N :: concat ts') with ([91%N] ++ ds ++ 93%N :: concat ts').
        rewrite app_assoc. apply skipn_app_len. rewrite app_length. reflexivity. }
      assert (firstn (length pre + S (length ds) - (length pre + 1)) (ds ++ 93%N :: concat ts') = ds) as ->
        by (apply firstn_app_len; lia).
      assert (skipn (length pre + S (length ds) + 1) q = concat ts') as ->.
      { unfold q. replace (pre ++ 91%N :: ds ++ 93%N :: concat ts') with ((pre ++ 91%N :: ds ++ [93%N]) ++ concat ts')
          by (rewrite <- !app_assoc; cbn; rewrite <- app_assoc; reflexivity).
        apply skipn_app_len. rewrite app_length. cbn. rewrite app_length. cbn. lia. }
      assert (firstn (length pre) q = pre) as -> by (apply firstn_app_len; reflexivity).
      rewrite Dk. destruct (strip_dots _ _ F) as [-> _].
      rewrite rest_match, (IH rest) by assumption. destruct pre; reflexivity. }
    change (parse_fuel (S f) q = (match pre with [] => [] | _ => [KName pre] end) ++ key :: map key_of rest).
    cbn [parse_fuel]. destruct q as [|c q']; [congruence|]. rewrite I1, I3.
    destruct (index_of 46%N (c :: q')) as [[|d]|] eqn:E; [exact R| |exact R].
    rewrite (I2 d eq_refl). exact R. }
  destruct s as [|s1 ss]; [inversion H; subst; reflexivity|].
  inversion H as [|? x1 ? ts1 Hk Hss]; subst. destruct (step_text_cases _ _ Hk) as [(k & -> & Pk & ->)|(b & -> & Nb & Kb)].
  - cbn [concat app drop_dot].
    destruct Pk as (K1 & K2 & K3). destruct (clean_not_in _ K2) as (N1 & N2 & N3).
    destruct ss as [|s2 ss2].
    + inversion Hss; subst. cbn [concat map key_of]. rewrite app_nil_r. cbn [parse_fuel].
      destruct k as [|c k]; [congruence|]. rewrite !index_of_none by assumption. reflexivity.
    + inversion Hss as [|? x2 ? ts2 Hk2 Hss2]; subst. destruct (step_text_cases _ _ Hk2) as [(k2 & -> & Pk2 & ->)|(b & -> & Nb & Kb)].
      * set (T := concat ((46%N :: k2) :: ts2)) in *.
        assert (ET : T = 46%N :: drop_dot T) by reflexivity.
        assert (I2 : index_of 46%N (k ++ T) = Some (length k)).
        { rewrite index_of_app by exact N1. rewrite ET. cbn. f_equal. lia. }
        assert (I1 : match index_of 91%N (k ++ T) with Some st => (length k <? st) = true | None => True end).
        { rewrite index_of_app by exact N2. rewrite ET. cbn [index_of N.eqb Pos.eqb].
          destruct (index_of 91%N (drop_dot T)); cbn [option_map]; [apply Nat.ltb_lt; lia|exact I]. }
        assert (R : KName (firstn (length k) (k ++ T)) :: prest f (strip is_dot (skipn (length k + 1) (k ++ T)))
                    = map key_of (Name k :: Name k2 :: ss2)).
        { rewrite firstn_app_len by reflexivity. cbn [map key_of]. f_equal.
          assert (skipn (length k + 1) (k ++ T) = drop_dot T) as ->.
          { rewrite ET at 1. change (46%N :: drop_dot T) with ([46%N] ++ drop_dot T). rewrite app_assoc.
            apply skipn_app_len. rewrite app_length. reflexivity. }
          assert (E : strip is_dot (drop_dot T) = drop_dot T) by apply (strip_dots _ _ Hss). rewrite E, rest_match. unfold T. rewrite (IH (Name k2 :: ss2)).
          - reflexivity. - exact Hss.
          - assert (length (drop_dot (concat ((46%N :: k) :: (46%N :: k2) :: ts2))) = length k + length T)
              by (unfold T; cbn [concat app length drop_dot]; rewrite app_length; reflexivity).
            change (concat ((46%N :: k2) :: ts2)) with T. assert (length (drop_dot T) < length T) by (rewrite ET at 2; cbn; lia).
            assert (length k > 0) by (destruct k; [congruence|cbn; lia]). unfold text in *. rewrite H0 in L. lia. }
        change (parse_fuel (S f) (k ++ T) = map key_of (Name k :: Name k2 :: ss2)). clearbody T.
        destruct k as [|c k]; [congruence|]. cbn [parse_fuel app]. cbn [app] in I1, I2, R.
        rewrite I2. destruct (index_of 91%N (c :: k ++ T)) as [st|].
        -- cbn [length] in I1 |- *. rewrite I1. exact R.
        -- exact R.
      * cbn [concat]. rewrite <- app_comm_cons, <- app_assoc. cbn [app map]. 
        rewrite (B k b (key_of s2) ss2); try assumption.
        -- destruct k; [congruence|]. reflexivity.
        -- pose proof (drop_dot_len (concat ts2)).
           cbn [concat app length drop_dot] in L. rewrite !app_length in L. cbn in L. rewrite !app_length in L. cbn in L. lia.
  - cbn [concat]. rewrite <- app_comm_cons, <- app_assoc. cbn [app map].
    change (drop_dot (91%N :: b ++ 93%N :: concat ts1)) with ([] ++ 91%N :: b ++ 93%N :: concat ts1).
    rewrite (B [] b (key_of s1) ss); try assumption; [reflexivity|constructor|].
    pose proof (drop_dot_len (concat ts1)).
    cbn [concat app length drop_dot] in L. rewrite !app_length in L. cbn in L. lia.
Qed.

Lemma path_keys_text : forall s p, path_text s p -> path_keys p = map key_of s.
Proof.
  intros s p (ts & H & ->). unfold path_keys.
  assert (strip_root (36%N :: concat ts) = drop_dot (concat ts)) as ->.
  { destruct H as [|s x ss ts Hx _]; [reflexivity|]. destruct Hx; reflexivity. }
  unfold parse_path. apply parse_rendered; [exact H|lia].
Qed.

(** ** Documents *)

Lemma entry_iff : forall k m x, entry k m x <-> assoc k m = Some x.
Proof.
  induction m as [|[k' v] m IH]; intro x; split; intro H.
  - inversion H.
  - discriminate H.
  - inversion H; subst; cbn.
    + rewrite text_eqb_refl. reflexivity.
    + assert (text_eqb k k' = false) as -> by (apply text_eqb_neq; congruence). apply IH. assumption.
  - cbn in H. destruct (text_eqb k k') eqn:E.
    + apply text_eqb_spec in E. assert (v = x) by congruence. subst. constructor.
    + apply text_eqb_neq in E. constructor; [congruence|]. apply IH. exact H.
Qed.

Lemma assoc_dict_set : forall A k k' (v : A) m,
  assoc k (dict_set k' v m) = if text_eqb k k' then Some v else assoc k m.
Proof.
  induction m as [|[k0 v0] m IH]; cbn.
  - reflexivity.
  - destruct (text_eqb k' k0) eqn:E; cbn.
    + apply text_eqb_spec in E. subst. destruct (text_eqb k k0); reflexivity.
    + rewrite IH. destruct (text_eqb k k0) eqn:F; [|reflexivity].
      apply text_eqb_spec in F. subst. rewrite text_eqb_sym, E. reflexivity.
Qed.
Lemma assoc_filter : forall A k k' (m : list (text * A)),
  assoc k (filter (fun e => negb (text_eqb k' (fst e))) m) = if text_eqb k k' then None else assoc k m.
Proof.
  induction m as [|[k0 v0] m IH]; cbn.
  - destruct (text_eqb k k'); reflexivity.
  - destruct (text_eqb k' k0) eqn:E; cbn.
    + rewrite IH. apply text_eqb_spec in E. subst. destruct (text_eqb k k0); reflexivity.
    + rewrite IH. destruct (text_eqb k k0) eqn:F; [|reflexivity].
      apply text_eqb_spec in F. subst. rewrite text_eqb_sym, E. reflexivity.
Qed.

Lemma nth_list_set : forall A (v : A) l n i, n < length l ->
  nth_error (list_set n v l) i = if Nat.eqb i n then Some v else nth_error l i.
Proof.
  induction l as [|a l IH]; intros n i H; [cbn in H; lia|].
  destruct n as [|n], i as [|i]; try reflexivity. cbn. apply IH. cbn in H. lia.
Qed.
Lemma nth_list_del : forall A (l : list A) n, list_del n l = firstn n l ++ skipn (n + 1) l.
Proof.
  induction l as [|a l IH]; intros [|n]; try reflexivity. cbn. rewrite IH. reflexivity.
Qed.

(** What the steps lead to, as a function. *)
Fixpoint look (d : json) (s : list step) : option json :=
  match s with
  | [] => Some d
  | Name k :: r => match d with JObj m => match assoc k m with Some x => look x r | None => None end | _ => None end
  | Idx n :: r => match d with JArr l => match nth_error l n with Some x => look x r | None => None end | _ => None end
  end.
Lemma at_path_iff : forall s d x, at_path d s x <-> look d s = Some x.
Proof.
  induction s as [|[k|n] s IH]; intros d x; split; intro H.
  - inversion H. reflexivity.
  - cbn in H. assert (d = x) by congruence. subst. constructor.
  - inversion H; subst. cbn. match goal with E : entry _ _ _ |- _ => apply entry_iff in E; rewrite E end. apply IH. assumption.
  - cbn in H. destruct d; try discriminate. destruct (assoc k m) as [y|] eqn:E; [|discriminate].
    econstructor; [apply entry_iff, E|apply IH, H].
  - inversion H; subst. cbn. match goal with E : nth_error _ _ = _ |- _ => rewrite E end. apply IH. assumption.
  - cbn in H. destruct d; try discriminate. destruct (nth_error l n) as [y|] eqn:E; [|discriminate].
    econstructor; [exact E|apply IH, H].
Qed.
Lemma no_path_iff : forall s d, (forall x, ~ at_path d s x) <-> look d s = None.
Proof.
  intros s d. split; intro H.
  - destruct (look d s) eqn:E; [|reflexivity]. exfalso. eapply H, at_path_iff, E.
  - intros x K. apply at_path_iff in K. congruence.
Qed.
Lemma look_app : forall s1 s2 d, look d (s1 ++ s2) = match look d s1 with Some x => look x s2 | None => None end.
Proof.
  induction s1 as [|[k|n] s1 IH]; intros s2 d; cbn; [reflexivity| |].
  - destruct d; try reflexivity. destruct (assoc k m); [apply IH|reflexivity].
  - destruct d; try reflexivity. destruct (nth_error l n); [apply IH|reflexivity].
Qed.

Definition nostar (s : step) : Prop := match s with Name k => k <> [42%N] | Idx _ => True end.
Lemma path_text_nostar : forall s p, path_text s p -> Forall nostar s.
Proof.
  intros s p (ts & H & _). induction H as [|x y s ts Hx _ IH]; constructor; [|exact IH].
  destruct Hx as [k Hk|ds Hd|k Hk Hs]; cbn; [apply Hk|exact I|exact Hs].
Qed.
Lemma get_look : forall s d x, Forall nostar s -> look d s = Some x -> get_value d (map key_of s) = x.
Proof.
  induction s as [|[k|n] s IH]; intros d x F H; cbn in *.
  - congruence.
  - inversion F; subst. assert (text_eqb k star = false) as -> by (apply text_eqb_neq; assumption).
    destruct d; try discriminate. destruct (assoc k m); [auto|discriminate].
  - inversion F; subst. destruct d; try discriminate. destruct (nth_error l n); [auto|discriminate].
Qed.
(** No step leads into the characters of a string. *)
Definition no_string_index (d : json) (s : list step) : Prop :=
  forall s1 n s2 t0, s = s1 ++ Idx n :: s2 -> look d s1 <> Some (JStr t0).
Lemma get_look_none : forall s d, Forall nostar s -> no_string_index d s -> look d s = None -> get_value d (map key_of s) = JNull.
Proof.
  induction s as [|[k|n] s IH]; intros d F C H; cbn in *.
  - discriminate.
  - inversion F; subst. assert (text_eqb k star = false) as -> by (apply text_eqb_neq; assumption).
    destruct d; try reflexivity. destruct (assoc k m) as [x|] eqn:E; [|reflexivity]. apply IH; try assumption.
    intros s1 n s2 t0 -> K. apply (C (Name k :: s1) n s2 t0 eq_refl). cbn. rewrite E. exact K.
  - inversion F; subst. destruct d; try reflexivity.
    + exfalso. apply (C [] n s s0 eq_refl). reflexivity.
    + destruct (nth_error l n) as [x|] eqn:E; [|reflexivity]. apply IH; try assumption.
      intros s1 n' s2 t0 -> K. apply (C (Idx n :: s1) n' s2 t0 eq_refl). cbn. rewrite E. exact K.
Qed.

(** ** Setting *)

Lemma disjoint_cons : forall a s b s', disjoint (a :: s) (b :: s') -> a = b -> disjoint s s'.
Proof.
  intros a s b s' [H1 H2] ->. split; intros r E; [apply (H1 r)|apply (H2 r)]; cbn; congruence.
Qed.
Lemma disjoint_nil : forall s, ~ disjoint [] s. Proof. intros s [H _]. apply (H s). reflexivity. Qed.
Lemma disjoint_nil_r : forall s, ~ disjoint s []. Proof. intros s [_ H]. apply (H s). reflexivity. Qed.

Lemma nth_lt : forall A (l : list A) n x, nth_error l n = Some x -> n < length l.
Proof. intros. apply nth_error_Some. congruence. Qed.

Lemma set_existing : forall v s d x, s <> [] -> look d s = Some x ->
  look (set_in v d (map key_of s)) s = Some v /\
  (forall s', disjoint s s' -> look (set_in v d (map key_of s)) s' = look d s').
Proof.
  intros v. induction s as [|a s IH]; intros d x N H; [congruence|].
  destruct a as [k|n]; cbn [look] in H.
  - destruct d; try discriminate. destruct (assoc k m) as [y|] eqn:E; [|discriminate].
    assert (R : exists z, set_in v (JObj m) (map key_of (Name k :: s)) = JObj (dict_set k z m) /\
                look z s = Some v /\ forall s', disjoint s s' -> look z s' = look y s').
    { cbn [map key_of set_in]. rewrite E. destruct s as [|b s].
      - exists v. split; [reflexivity|]. split; [reflexivity|]. intros s' D. exfalso. exact (disjoint_nil _ D).
      - exists (set_in v y (map key_of (b :: s))). split; [reflexivity|]. apply (IH y x); [discriminate|exact H]. }
    destruct R as (z & -> & R1 & R2). split.
    + cbn [look]. rewrite assoc_dict_set, text_eqb_refl. exact R1.
    + intros [|[k'|n'] s'] D; [exfalso; exact (disjoint_nil_r _ D)| |reflexivity].
      cbn [look]. rewrite assoc_dict_set. destruct (text_eqb k' k) eqn:F; [|reflexivity].
      apply text_eqb_spec in F. subst. rewrite E. apply R2. eapply disjoint_cons; [exact D|reflexivity].
  - destruct d; try discriminate. destruct (nth_error l n) as [y|] eqn:E; [|discriminate].
    pose proof (nth_lt _ _ _ _ E) as Ln.
    assert (R : exists z, set_in v (JArr l) (map key_of (Idx n :: s)) = JArr (list_set n z l) /\
                look z s = Some v /\ forall s', disjoint s s' -> look z s' = look y s').
    { cbn [map key_of set_in]. destruct s as [|b s].
      - exists v. destruct (Nat.leb_spec (length l) n); [lia|]. split; [reflexivity|]. split; [reflexivity|].
        intros s' D. exfalso. exact (disjoint_nil _ D).
      - cbn [map]. rewrite E. exists (set_in v y (map key_of (b :: s))). split; [reflexivity|]. apply (IH y x); [discriminate|exact H]. }
    destruct R as (z & -> & R1 & R2). split.
    + cbn [look]. rewrite nth_list_set, Nat.eqb_refl by exact Ln. exact R1.
    + intros [|[k'|n'] s'] D; [exfalso; exact (disjoint_nil_r _ D)|reflexivity|].
      cbn [look]. rewrite nth_list_set by exact Ln. destruct (Nat.eqb_spec n' n) as [->|]; [|reflexivity].
      rewrite E. apply R2. eapply disjoint_cons; [exact D|reflexivity].
Qed.

(** Setting inside a part [x] of the document changes that part only. *)
Lemma set_below : forall v s d x ks, ks <> [] -> look d s = Some x ->
  look (set_in v d (map key_of s ++ ks)) s = Some (set_in v x ks) /\
  (forall s', disjoint s s' -> look (set_in v d (map key_of s ++ ks)) s' = look d s').
Proof.
  intros v. induction s as [|a s IH]; intros d x ks N H.
  - cbn in *. split; [congruence|]. intros s' D. exfalso. exact (disjoint_nil _ D).
  - assert (NE : map key_of s ++ ks <> []) by (destruct s; [exact N|discriminate]).
    destruct a as [k|n]; cbn [look] in H.
    + destruct d; try discriminate. destruct (assoc k m) as [y|] eqn:E; [|discriminate].
      destruct (IH y x ks N H) as [R1 R2].
      assert (set_in v (JObj m) (map key_of (Name k :: s) ++ ks) = JObj (dict_set k (set_in v y (map key_of s ++ ks)) m)) as ->.
      { cbn [map key_of set_in app]. rewrite E. destruct (map key_of s ++ ks); [congruence|reflexivity]. }
      split.
      * cbn [look]. rewrite assoc_dict_set, text_eqb_refl. exact R1.
      * intros [|[k'|n'] s'] D; [exfalso; exact (disjoint_nil_r _ D)| |reflexivity].
        cbn [look]. rewrite assoc_dict_set. destruct (text_eqb k' k) eqn:F; [|reflexivity].
        apply text_eqb_spec in F. subst. rewrite E. apply R2. eapply disjoint_cons; [exact D|reflexivity].
    + destruct d; try discriminate. destruct (nth_error l n) as [y|] eqn:E; [|discriminate].
      pose proof (nth_lt _ _ _ _ E) as Ln. destruct (IH y x ks N H) as [R1 R2].
      assert (set_in v (JArr l) (map key_of (Idx n :: s) ++ ks) = JArr (list_set n (set_in v y (map key_of s ++ ks)) l)) as ->.
      { cbn [map key_of set_in app]. rewrite E. destruct (map key_of s ++ ks); [congruence|reflexivity]. }
      split.
      * cbn [look]. rewrite nth_list_set, Nat.eqb_refl by exact Ln. exact R1.
      * intros [|[k'|n'] s'] D; [exfalso; exact (disjoint_nil_r _ D)|reflexivity|].
        cbn [look]. rewrite nth_list_set by exact Ln. destruct (Nat.eqb_spec n' n) as [->|]; [|reflexivity].
        rewrite E. apply R2. eapply disjoint_cons; [exact D|reflexivity].
Qed.

Lemma list_set_same : forall A (l : list A) n x, nth_error l n = Some x -> list_set n x l = l.
Proof.
  induction l as [|a l IH]; intros [|n] x H; cbn in *; try discriminate; [congruence|]. rewrite IH by exact H. reflexivity.
Qed.
Lemma dict_set_same : forall A k (x : A) m, assoc k m = Some x -> dict_set k x m = m.
Proof.
  induction m as [|[k' v] m IH]; intro H; cbn in *; [discriminate|].
  destruct (text_eqb k k') eqn:E; [congruence|]. rewrite IH by exact H. reflexivity.
Qed.

(** The place where the last step of a path can be written: an object for a name, an array for an index. *)
Definition fits (x : json) (a : step) : Prop :=
  match a, x with Name _, JObj _ => True | Idx _, JArr _ => True | _, _ => False end.
Lemma set_misfit : forall v s a d, (forall x, look d s = Some x -> ~ fits x a) ->
  set_in v d (map key_of (s ++ [a])) = d.
Proof.
  intros v. induction s as [|b s IH]; intros a d H.
  - specialize (H d eq_refl). destruct a as [k|n]; cbn; destruct d; cbn in H; tauto || reflexivity.
  - assert (NE : map key_of (s ++ [a]) <> []) by (destruct s; discriminate).
    destruct b as [k|n]; cbn [app map key_of set_in].
    + destruct d; try reflexivity. destruct (assoc k m) as [y|] eqn:E.
      * assert (set_in v y (map key_of (s ++ [a])) = y) as R.
        { apply IH. intros x Hx. apply (H x). cbn. rewrite E. exact Hx. }
        destruct (map key_of (s ++ [a])); [congruence|]. rewrite R. f_equal. apply dict_set_same, E.
      * destruct (map key_of (s ++ [a])); [congruence|reflexivity].
    + destruct d; try reflexivity. destruct (nth_error l n) as [y|] eqn:E.
      * assert (set_in v y (map key_of (s ++ [a])) = y) as R.
        { apply IH. intros x Hx. apply (H x). cbn. rewrite E. exact Hx. }
        destruct (map key_of (s ++ [a])); [congruence|]. rewrite R. f_equal. apply list_set_same, E.
      * destruct (map key_of (s ++ [a])); [congruence|reflexivity].
Qed.

(** ** Removing *)

Definition is_name (s : step) : Prop := match s with Name _ => True | Idx _ => False end.

Lemma remove_below : forall s d x ks, ks <> [] -> Forall is_name s -> look d s = Some x ->
  look (remove_in d (map key_of s ++ ks)) s = Some (remove_in x ks) /\
  (forall s', disjoint s s' -> look (remove_in d (map key_of s ++ ks)) s' = look d s').
Proof.
  induction s as [|a s IH]; intros d x ks N F H.
  - cbn in *. split; [congruence|]. intros s' D. exfalso. exact (disjoint_nil _ D).
  - assert (NE : map key_of s ++ ks <> []) by (destruct s; [exact N|discriminate]).
    inversion F as [|? ? Fa Fs]; subst. destruct a as [k|n]; [|destruct Fa]. cbn [look] in H.
    destruct d; try discriminate. destruct (assoc k m) as [y|] eqn:E; [|discriminate].
    destruct (IH y x ks N Fs H) as [R1 R2].
    assert (remove_in (JObj m) (map key_of (Name k :: s) ++ ks) = JObj (dict_set k (remove_in y (map key_of s ++ ks)) m)) as ->.
    { cbn [map key_of remove_in app]. rewrite E. destruct (map key_of s ++ ks); [congruence|reflexivity]. }
    split.
    + cbn [look]. rewrite assoc_dict_set, text_eqb_refl. exact R1.
    + intros [|[k'|n'] s'] D; [exfalso; exact (disjoint_nil_r _ D)| |reflexivity].
      cbn [look]. rewrite assoc_dict_set. destruct (text_eqb k' k) eqn:G; [|reflexivity].
      apply text_eqb_spec in G. subst. rewrite E. apply R2. eapply disjoint_cons; [exact D|reflexivity].
Qed.
Lemma list_del_beyond : forall A (l : list A) n, length l <= n -> list_del n l = l.
Proof. induction l as [|a l IH]; intros [|n] H; cbn in *; try reflexivity; [lia|]. rewrite IH by lia. reflexivity. Qed.
Lemma remove_absent : forall s a d, Forall is_name s -> look d (s ++ [a]) = None ->
  remove_in d (map key_of (s ++ [a])) = d.
Proof.
  induction s as [|b s IH]; intros a d F H.
  - destruct a as [k|n]; cbn in *.
    + destruct d; try reflexivity. destruct (assoc k m); [discriminate|reflexivity].
    + destruct d; try reflexivity. destruct (nth_error l n) eqn:E; [discriminate|].
      apply nth_error_None in E. rewrite list_del_beyond by exact E. reflexivity.
  - inversion F as [|? ? Fa Fs]; subst. destruct b as [k|n]; [|destruct Fa].
    assert (NE : map key_of (s ++ [a]) <> []) by (destruct s; discriminate).
    cbn [app map key_of remove_in]. cbn [app look] in H. destruct d; try reflexivity. destruct (assoc k m) as [y|] eqn:E; [|reflexivity].
    pose proof (IH a y Fs H) as R. destruct (map key_of (s ++ [a])); [congruence|]. rewrite R. f_equal. apply dict_set_same, E.
Qed.

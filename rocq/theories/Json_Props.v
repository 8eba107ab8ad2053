(** Properties of the JSON functions (C25, C26, C46, C47). *)
From Verif Require Import Base PyVal Utils_Model Utils_Spec Utils_Proofs Agg_Model Json_Model Json_Spec Json_Proofs.
Open Scope nat_scope.

Section P.
Variable loads : text -> option json.    (* json.loads *)
Variable str_of : json -> text.          (* Python str() *)

(** A document given as JSON text is decoded first, by every function. *)
Theorem json_text_argument : forall s d paths sets one op, loads s = Some d -> container d ->
  json_extract loads (JStr s) paths = json_extract loads d paths /\
  json_set loads str_of (JStr s) sets = json_set loads str_of d sets /\
  json_remove loads (JStr s) paths = json_remove loads d paths /\
  json_contains_path loads (JStr s) one paths = json_contains_path loads d one paths /\
  json_depth loads (JStr s) = json_depth loads d /\
  json_keys loads (JStr s) op = json_keys loads d op /\
  json_length loads (JStr s) op = json_length loads d op.
Proof.
  intros s d paths sets one op H C.
  assert (D : decode loads (JStr s) = decode loads d) by (cbn; rewrite H; destruct d; try reflexivity; destruct C).
  unfold json_extract, json_set, json_remove, json_contains_path, json_depth, json_keys, json_length.
  rewrite D. repeat split; reflexivity.
Qed.

Lemma decode_container : forall d, container d -> decode loads d = d.
Proof. intros [] H; try destruct H; reflexivity. Qed.
Lemma jnone_container : forall d, container d -> jnone d = false.
Proof. intros [] H; try destruct H; reflexivity. Qed.
Lemma extract_one : forall d s p, container d -> path_text s p -> json_extract loads d [p] = Ok (get_value d (map key_of s)).
Proof.
  intros d s p C H. unfold json_extract. rewrite decode_container by exact C. cbn [extract_all].
  unfold get_path. rewrite jnone_container by exact C. cbn [bind]. rewrite (path_keys_text s p H). reflexivity.
Qed.
Lemma set_one : forall d s p v, container d -> path_text s p -> json_set loads str_of d [(p, v)] = Ok (set_in v d (map key_of s)).
Proof.
  intros d s p v C H. unfold json_set. rewrite decode_container by exact C. cbn [set_pairs]. unfold set_pair.
  rewrite jnone_container by exact C. rewrite (path_keys_text s p H).
  destruct d; try destruct C; reflexivity.
Qed.
Lemma remove_one : forall d s p, container d -> path_text s p -> json_remove loads d [p] = Ok (remove_in d (map key_of s)).
Proof.
  intros d s p C H. unfold json_remove. rewrite decode_container by exact C. cbn [remove_all].
  rewrite jnone_container by exact C. rewrite (path_keys_text s p H). reflexivity.
Qed.

(** JSON_EXTRACT follows the steps of the written path: it returns the part they lead to, and NULL when they
    lead nowhere (no step being an index into a string). *)
Theorem json_extract_path : forall d s p, container d -> path_text s p ->
  (forall x, at_path d s x -> json_extract loads d [p] = Ok x) /\
  ((forall x, ~ at_path d s x) -> (forall s1 n s2 w, s = s1 ++ Idx n :: s2 -> ~ at_path d s1 (JStr w)) ->
   json_extract loads d [p] = Ok JNull).
Proof.
  intros d s p C H. rewrite (extract_one d s p C H). pose proof (path_text_nostar _ _ H) as F. split.
  - intros x A. f_equal. apply get_look; [exact F|]. apply at_path_iff, A.
  - intros N I. f_equal. apply get_look_none; [exact F| |apply no_path_iff, N].
    intros s1 n s2 w E K. apply (I s1 n s2 w E). apply at_path_iff, K.
Qed.
(** An index into a string gives one of its characters (in MySQL $.a[0] of a string is the string). *)
Theorem json_extract_string_index_refuted :
  json_extract loads (JObj [(t "a", JStr (t "xyz"))]) [t "$.a[1]"] = Ok (JStr (t "y")).
Proof. reflexivity. Qed.

(** JSON_EXTRACT with several paths is the array of the single results. *)
Theorem json_extract_many : forall d ss ps, container d -> Forall2 path_text ss ps -> length ps <> 1 ->
  exists xs, json_extract loads d ps = Ok (JArr xs) /\ Forall2 (fun p x => json_extract loads d [p] = Ok x) ps xs.
Proof.
  intros d ss ps C H L.
  assert (E : exists xs, extract_all d ps = Ok xs /\ length xs = length ps /\ Forall2 (fun p x => json_extract loads d [p] = Ok x) ps xs).
  { clear L. induction H as [|s p ss ps Hp Hs IH].
    - exists []. repeat split; constructor.
    - destruct IH as (xs & E & Lx & F). exists (get_value d (map key_of s) :: xs).
      assert (G : json_extract loads d [p] = Ok (get_value d (map key_of s))) by (apply extract_one; assumption).
      split; [|split].
      + cbn [extract_all]. unfold get_path. rewrite jnone_container by exact C. cbn [bind].
        rewrite E, (path_keys_text s p Hp). reflexivity.
      + cbn. congruence.
      + constructor; assumption. }
  destruct E as (xs & E & Lx & F). exists xs. split; [|exact F].
  unfold json_extract. rewrite decode_container by exact C. rewrite E. cbn [bind].
  destruct xs as [|x [|y xs]]; [reflexivity|cbn in Lx; congruence|reflexivity].
Qed.

(** JSON_SET at a path that exists: reading the path gives the new value, and every path that neither
    leads to nor through it reads as before. *)
Theorem json_set_existing : forall d s p v x, container d -> path_text s p -> s <> [] -> at_path d s x ->
  exists d', json_set loads str_of d [(p, v)] = Ok d' /\ json_extract loads d' [p] = Ok v /\ at_path d' s v /\
  forall s' y, disjoint s s' -> (at_path d' s' y <-> at_path d s' y).
Proof.
  intros d s p v x C H N A. exists (set_in v d (map key_of s)). apply at_path_iff in A.
  destruct (set_existing v s d x N A) as [R1 R2].
  split; [apply set_one; assumption|].
  assert (C' : container (set_in v d (map key_of s))).
  { destruct s as [|[k|n] s]; [congruence| |]; destruct d; try discriminate A; cbn [map key_of set_in].
    - cbn [look] in A. destruct (assoc k m); [|discriminate]. destruct (map key_of s); exact I.
    - cbn [look] in A. destruct (nth_error l n); [|discriminate]. destruct (map key_of s); [destruct (_ <=? _)|]; exact I. }
  split; [|split].
  - rewrite (extract_one _ s p C' H). f_equal. apply get_look; [eapply path_text_nostar, H|exact R1].
  - apply at_path_iff, R1.
  - intros s' y D. rewrite !at_path_iff. rewrite R2 by exact D. reflexivity.
Qed.

(** JSON_SET of a new member of an existing object, and of an index at or past the end of an existing array:
    the member is added, the array grows by one element; everything else stays. *)
Theorem json_set_new_member : forall d s p v k m, container d -> path_text (s ++ [Name k]) p ->
  at_path d s (JObj m) -> (forall x, ~ entry k m x) ->
  exists d', json_set loads str_of d [(p, v)] = Ok d' /\ at_path d' (s ++ [Name k]) v /\
  (forall k' x, k' <> k -> (at_path d' (s ++ [Name k']) x <-> at_path d (s ++ [Name k']) x)) /\
  forall s' y, disjoint s s' -> (at_path d' s' y <-> at_path d s' y).
Proof.
  intros d s p v k m C H A E. exists (set_in v d (map key_of (s ++ [Name k]))). rewrite map_app. apply at_path_iff in A.
  destruct (set_below v s d (JObj m) (map key_of [Name k]) ltac:(discriminate) A) as [R1 R2].
  split; [rewrite (set_one _ _ _ _ C H), map_app; reflexivity|].
  assert (assoc k m = None) as Ek.
  { destruct (assoc k m) eqn:F; [|reflexivity]. exfalso. eapply E, entry_iff, F. }
  assert (set_in v (JObj m) (map key_of [Name k]) = JObj (dict_set k v m)) as R3 by (cbn; rewrite Ek; reflexivity).
  rewrite R3 in R1. split; [|split].
  - apply at_path_iff. rewrite look_app, R1. cbn. rewrite assoc_dict_set, text_eqb_refl. reflexivity.
  - intros k' x N. rewrite !at_path_iff, !look_app, R1, A. cbn. rewrite assoc_dict_set.
    assert (text_eqb k' k = false) as -> by (apply text_eqb_neq, N). reflexivity.
  - intros s' y D. rewrite !at_path_iff, R2 by exact D. reflexivity.
Qed.
Theorem json_set_append : forall d s p v n l, container d -> path_text (s ++ [Idx n]) p ->
  at_path d s (JArr l) -> length l <= n ->
  exists d', json_set loads str_of d [(p, v)] = Ok d' /\ at_path d' s (JArr (l ++ [v])) /\
  forall s' y, disjoint s s' -> (at_path d' s' y <-> at_path d s' y).
Proof.
  intros d s p v n l C H A L. exists (set_in v d (map key_of (s ++ [Idx n]))). rewrite map_app. apply at_path_iff in A.
  destruct (set_below v s d (JArr l) (map key_of [Idx n]) ltac:(discriminate) A) as [R1 R2].
  split; [rewrite (set_one _ _ _ _ C H), map_app; reflexivity|].
  assert (set_in v (JArr l) (map key_of [Idx n]) = JArr (l ++ [v])) as R3.
  { cbn. destruct (Nat.leb_spec (length l) n); [reflexivity|lia]. }
  rewrite R3 in R1. split; [apply at_path_iff, R1|].
  intros s' y D. rewrite !at_path_iff, R2 by exact D. reflexivity.
Qed.
(** JSON_SET below a level that does not exist (or is not an object for a name, an array for an index)
    changes nothing. *)
Theorem json_set_missing_level : forall d s a p v, container d -> path_text (s ++ [a]) p ->
  (forall x, at_path d s x -> match a, x with Name _, JObj _ | Idx _, JArr _ => False | _, _ => True end) ->
  json_set loads str_of d [(p, v)] = Ok d.
Proof.
  intros d s a p v C H M. rewrite (set_one _ _ _ _ C H). f_equal. apply set_misfit.
  intros x Hx F. specialize (M x (proj2 (at_path_iff _ _ _) Hx)). destruct a, x; cbn in F; tauto.
Qed.
(** JSON_SET at "$" leaves an array or object unchanged (MySQL replaces the document). *)
Theorem json_set_root_refuted : forall d v, container d -> json_set loads str_of d [(t "$", v)] = Ok d.
Proof. intros d v C; destruct d; try destruct C; reflexivity. Qed.

(** JSON_REMOVE of an existing member reached through names only: the member is gone, the rest stays. *)
Theorem json_remove_member : forall d s p k x, container d -> path_text (s ++ [Name k]) p ->
  Forall (fun a => exists k', a = Name k') s -> at_path d (s ++ [Name k]) x ->
  exists d', json_remove loads d [p] = Ok d' /\ (forall y, ~ at_path d' (s ++ [Name k]) y) /\
  forall s' y, disjoint (s ++ [Name k]) s' -> (at_path d' s' y <-> at_path d s' y).
Proof.
  intros d s p k x C H F A. assert (F' : Forall is_name s) by (eapply Forall_impl; [|exact F]; intros a [k' ->]; exact I).
  apply at_path_iff in A. rewrite look_app in A. destruct (look d s) as [o|] eqn:E; [|discriminate].
  cbn in A. destruct o; try discriminate. destruct (assoc k m) as [z|] eqn:G; [|discriminate].
  destruct (remove_below s d (JObj m) [KName k] ltac:(discriminate) F' E) as [R1 R2].
  assert (Q : remove_in (JObj m) [KName k] = JObj (filter (fun e => negb (text_eqb k (fst e))) m)) by (cbn; rewrite G; reflexivity).
  rewrite Q in R1.
  exists (remove_in d (map key_of s ++ [KName k])). split; [rewrite (remove_one _ _ _ C H), map_app; reflexivity|].
  split.
  - apply no_path_iff. rewrite look_app, R1. cbn. rewrite assoc_filter, text_eqb_refl. reflexivity.
  - intros s' y D. rewrite !at_path_iff.
    (* s' goes through the object or not *)
    assert (T : (exists r, s' = s ++ r) \/ disjoint s s').
    { clear - D. revert s' D. induction s as [|a s IH]; intros s' D; [left; exists s'; reflexivity|].
      destruct s' as [|b s']; [exfalso; exact (disjoint_nil_r _ D)|].
      assert (DD : {a = b} + {a <> b}) by (repeat decide equality).
      destruct DD as [->|N].
      - destruct (IH s') as [[r ->]|D']; [eapply disjoint_cons; [exact D|reflexivity]|left; exists r; reflexivity|].
        right. split; intros r E; [apply (proj1 D' r)|apply (proj2 D' r)]; cbn in E; congruence.
      - right. split; intros r E; cbn in E; congruence. }
    destruct T as [[r ->]|D'].
    + rewrite !look_app, R1, E. destruct r as [|[k'|n'] r].
      * exfalso. apply (proj2 D [Name k]). rewrite app_nil_r. reflexivity.
      * cbn. rewrite assoc_filter. destruct (text_eqb k' k) eqn:K; [|reflexivity].
        apply text_eqb_spec in K. subst. exfalso. apply (proj1 D r). rewrite <- app_assoc. reflexivity.
      * reflexivity.
    + rewrite R2 by exact D'. reflexivity.
Qed.
(** JSON_REMOVE of an element of an array reached through names only: the element is deleted and the later
    ones move up; the rest of the document stays. *)
Theorem json_remove_element : forall d s p n l, container d -> path_text (s ++ [Idx n]) p ->
  Forall (fun a => exists k', a = Name k') s -> at_path d s (JArr l) ->
  exists d', json_remove loads d [p] = Ok d' /\ at_path d' s (JArr (firstn n l ++ skipn (n + 1) l)) /\
  forall s' y, disjoint s s' -> (at_path d' s' y <-> at_path d s' y).
Proof.
  intros d s p n l C H F A. assert (F' : Forall is_name s) by (eapply Forall_impl; [|exact F]; intros a [k' ->]; exact I).
  apply at_path_iff in A.
  destruct (remove_below s d (JArr l) [KIdx n] ltac:(discriminate) F' A) as [R1 R2].
  assert (Q : remove_in (JArr l) [KIdx n] = JArr (firstn n l ++ skipn (n + 1) l)) by (cbn; rewrite nth_list_del; reflexivity).
  rewrite Q in R1.
  exists (remove_in d (map key_of s ++ [KIdx n])). split; [rewrite (remove_one _ _ _ C H), map_app; reflexivity|].
  split; [apply at_path_iff, R1|]. intros s' y D. rewrite !at_path_iff, R2 by exact D. reflexivity.
Qed.
(** JSON_REMOVE of something that does not exist changes nothing (path of names and a last step). *)
Theorem json_remove_absent : forall d s a p, container d -> path_text (s ++ [a]) p ->
  Forall (fun b => exists k', b = Name k') s -> (forall x, ~ at_path d (s ++ [a]) x) ->
  json_remove loads d [p] = Ok d.
Proof.
  intros d s a p C H F A. rewrite (remove_one _ _ _ C H). f_equal. apply remove_absent.
  - eapply Forall_impl; [|exact F]. intros b [k' ->]. exact I.
  - apply no_path_iff, A.
Qed.
(** With an index before the last step the property fails: the whole element is deleted, whatever the
    following member name is. *)
Theorem json_remove_through_index_refuted : forall l n k p, path_text [Idx n; Name k] p ->
  json_remove loads (JArr l) [p] = Ok (JArr (firstn n l ++ skipn (n + 1) l)).
Proof.
  intros l n k p H. rewrite (remove_one (JArr l) _ _ I H). cbn [map key_of remove_in]. rewrite nth_list_del. reflexivity.
Qed.

(** ** C46: JSON_CONTAINS_PATH *)

(** 'one': 1 iff some path leads to something that is not null; 'all': 1 iff every path does. *)
Theorem json_contains_path_one_all : forall d ss ps, container d -> Forall2 path_text ss ps ->
  (exists b, json_contains_path loads d true ps = Ok (if b : bool then 1 else 0)%Z /\
    (b = true <-> exists p x, In p ps /\ json_extract loads d [p] = Ok x /\ x <> JNull)) /\
  (exists b, json_contains_path loads d false ps = Ok (if b : bool then 1 else 0)%Z /\
    (b = true <-> forall p, In p ps -> exists x, json_extract loads d [p] = Ok x /\ x <> JNull)).
Proof.
  intros d ss ps C H. unfold json_contains_path. rewrite decode_container by exact C.
  induction H as [|s p ss ps Hp Hs IH].
  - split; [exists false|exists true]; (split; [reflexivity|]).
    + split; [discriminate|]. intros (p & x & [] & _).
    + split; [|reflexivity]. intros _ p [].
  - destruct IH as [(b1 & E1 & I1) (b2 & E2 & I2)].
    assert (G : json_extract loads d [p] = Ok (get_value d (map key_of s))) by (apply extract_one; assumption).
    cbn [contains_loop]. unfold get_path. rewrite jnone_container by exact C. cbn [bind].
    rewrite (path_keys_text s p Hp). set (x := get_value d (map key_of s)) in *.
    assert (J : jnone x = true <-> x = JNull) by (destruct x; split; intro; try reflexivity; discriminate).
    split.
    + destruct (jnone x) eqn:Jx.
      * exists b1. split; [exact E1|]. rewrite I1. split; intros (q & y & I' & Q1 & Q2).
        -- exists q, y. split; [right; exact I'|]. auto.
        -- destruct I' as [<-|I']; [|exists q, y; auto]. exfalso. apply Q2.
           assert (y = x) by congruence. subst y. apply J, eq_refl.
      * exists true. split; [reflexivity|]. split; [|reflexivity]. intros _. exists p, x. split; [left; reflexivity|].
        split; [exact G|]. intro K. rewrite K in Jx. discriminate Jx.
    + destruct (jnone x) eqn:Jx.
      * exists false. split; [reflexivity|]. split; [discriminate|]. intro K.
        destruct (K p (or_introl eq_refl)) as (y & Y1 & Y2). exfalso. apply Y2. assert (y = x) by congruence. subst y. apply J, eq_refl.
      * exists b2. split; [exact E2|]. rewrite I2. split.
        -- intros K q [<-|Iq]; [|apply K, Iq]. exists x. split; [exact G|]. intro Z. rewrite Z in Jx. discriminate Jx.
        -- intros K q Iq. apply K. right. exact Iq.
Qed.
(** A member that is present with the value null counts as absent (MySQL: present). *)
Theorem json_contains_null_member_refuted :
  json_contains_path loads (JObj [(t "a", JNull)]) true [t "$.a"] = Ok 0%Z.
Proof. reflexivity. Qed.

(** ** C47: JSON_DEPTH, JSON_KEYS, JSON_LENGTH *)

Lemma fold_max_in : forall l x, In x l -> x <= fold_right Nat.max 0 l.
Proof. induction l as [|a l IH]; intros x H; [destruct H|]. cbn. destruct H as [->|H]; [lia|]. specialize (IH x H). lia. Qed.
Lemma fold_max_ex : forall l, l <> [] -> In (fold_right Nat.max 0 l) l.
Proof.
  induction l as [|a l IH]; intro N; [congruence|]. cbn. destruct l as [|b l].
  - left. cbn. lia.
  - destruct (Nat.max_spec a (fold_right Nat.max 0 (b :: l))) as [[_ ->]|[_ ->]]; [right; apply IH; discriminate|left; reflexivity].
Qed.

(** The number of levels of the document. *)
Theorem json_depth_levels : forall d, container d -> exists n,
  json_depth loads d = S n /\ nested d n /\ forall n', nested d n' -> n' <= n.
Proof.
  intros d C. unfold json_depth. rewrite decode_container by exact C. clear C.
  assert (G : forall sz d, (forall n, nested d n -> n <= sz) -> exists n, get_depth d = S n /\ nested d n /\ forall n', nested d n' -> n' <= n).
  { induction sz as [sz IH] using lt_wf_ind. intros e B.
    assert (K : forall cs, (forall x, In x cs <-> child e x) -> (cs = [] -> get_depth e = 1) ->
       (cs <> [] -> get_depth e = fold_right Nat.max 0 (map get_depth cs) + 1) ->
       exists n, get_depth e = S n /\ nested e n /\ forall n', nested e n' -> n' <= n).
    { intros cs Hc E0 E1.
      assert (SUB : forall x, In x cs -> exists n, get_depth x = S n /\ nested x n /\ forall n', nested x n' -> n' <= n).
      { intros x Hx. assert (1 <= sz).
        { apply (B 1). eapply nest_child; [apply Hc, Hx|constructor]. }
        apply (IH (sz - 1)); [lia|]. intros n Hn. assert (S n <= sz); [|lia]. apply B. eapply nest_child; [apply Hc, Hx|exact Hn]. }
      destruct cs as [|c cs].
      - exists 0. rewrite E0 by reflexivity. split; [reflexivity|]. split; [constructor|].
        intros n' Hn. inversion Hn; subst; [lia|]. exfalso. apply (Hc x). assumption.
      - rewrite E1 by discriminate. set (mx := fold_right Nat.max 0 (map get_depth (c :: cs))).
        assert (In mx (map get_depth (c :: cs))) as Im by (apply fold_max_ex; discriminate).
        apply in_map_iff in Im as (x & Ex & Ix). exists mx. split; [lia|]. split.
        + destruct (SUB x Ix) as (n & D1 & D2 & _). rewrite <- Ex, D1. eapply nest_child; [apply Hc, Ix|exact D2].
        + intros n' Hn. inversion Hn as [|? y k Hy Hk]; subst; [lia|]. apply Hc in Hy.
          destruct (SUB y Hy) as (n & D1 & _ & D3). specialize (D3 k Hk).
          assert (get_depth y <= mx) by (apply fold_max_in, in_map, Hy). lia. }
    destruct e.
    - apply (K []); [|reflexivity|congruence]. intro x. split; intro X; inversion X.
    - apply (K []); [|reflexivity|congruence]. intro x. split; intro X; inversion X.
    - apply (K []); [|reflexivity|congruence]. intro x. split; intro X; inversion X.
    - apply (K l).
      + intro x. split; intro X; [constructor; exact X|inversion X; assumption].
      + intros ->. reflexivity.
      + intro N. destruct l; [congruence|reflexivity].
    - apply (K (map snd m)).
      + intro x. rewrite in_map_iff. split.
        * intros ([k y] & <- & I'). econstructor. exact I'.
        * intro X. inversion X; subst. eexists (_, _). split; [reflexivity|eassumption].
      + destruct m; [reflexivity|discriminate].
      + intro N. destruct m as [|e m]; [destruct (N eq_refl)|]. cbn [get_depth]. rewrite map_map. reflexivity. }
  assert (BND : forall d, exists sz, forall n, nested d n -> n <= sz).
  { clear. fix F 1. intros [| | |l|m].
    - exists 0. intros n H. inversion H as [|? ? ? X]; [lia|inversion X].
    - exists 0. intros n H. inversion H as [|? ? ? X]; [lia|inversion X].
    - exists 0. intros n H. inversion H as [|? ? ? X]; [lia|inversion X].
    - assert (L : exists sz, forall x n, In x l -> nested x n -> n <= sz).
      { induction l as [|a l [sz IH]]; [exists 0; intros x n []|].
        destruct (F a) as [sa Ha]. exists (Nat.max sa sz). intros x n [->|Hx] Hn; [specialize (Ha n Hn); lia|specialize (IH x n Hx Hn); lia]. }
      destruct L as [sz L]. exists (S sz). intros n H. inversion H as [|? x k X Y]; subst; [lia|]. inversion X; subst.
      match goal with I' : In x l |- _ => specialize (L x k I' Y) end. lia.
    - assert (L : exists sz, forall k x n, In (k, x) m -> nested x n -> n <= sz).
      { induction m as [|[k a] m [sz IH]]; [exists 0; intros k x n []|].
        destruct (F a) as [sa Ha]. exists (Nat.max sa sz). intros k' x n [E|Hx] Hn.
        - assert (a = x) by congruence. subst x. specialize (Ha n Hn). lia.
        - specialize (IH k' x n Hx Hn). lia. }
      destruct L as [sz L]. exists (S sz). intros n H. inversion H as [|? x k X Y]; subst; [lia|]. inversion X; subst.
      match goal with I' : In (_, x) m |- _ => specialize (L _ x k I' Y) end. lia. }
  destruct (BND d) as [sz B]. exact (G sz d B).
Qed.

(** JSON_LENGTH counts the elements or members, 0 for anything else; JSON_KEYS lists the keys in order. *)
Theorem json_length_keys : forall d s p x, container d -> path_text s p -> at_path d s x ->
  json_length loads d (Some p) = Ok (match x with JArr l => length l | JObj m => length m | _ => 0 end) /\
  json_keys loads d (Some p) = Ok (match x with JObj m => map fst m | _ => [] end).
Proof.
  intros d s p x C H A.
  assert (G : get_value d (map key_of s) = x) by (apply get_look; [eapply path_text_nostar, H|apply at_path_iff, A]).
  unfold json_length, json_keys. rewrite decode_container by exact C. cbn [at_opt]. unfold get_path.
  rewrite jnone_container by exact C. cbn [bind]. rewrite (path_keys_text s p H), G.
  destruct x; split; reflexivity.
Qed.

(** JSON_OBJECT: each key has the value given last for it. *)
Theorem json_object_last : forall l k v r, (forall x, ~ In (k, x) r) ->
  entry k (json_object [] (l ++ (k, v) :: r)) v.
Proof.
  intros l k v r H. apply entry_iff.
  assert (A : forall r acc, (forall x, ~ In (k, x) r) -> assoc k acc = Some v -> assoc k (json_object acc r) = Some v).
  { clear. induction r as [|[k' x] r IH]; intros acc H A; [exact A|]. cbn [json_object]. apply IH.
    - intros y I'. apply (H y). right. exact I'.
    - rewrite assoc_dict_set. destruct (text_eqb k k') eqn:E; [|exact A]. apply text_eqb_spec in E. subst. exfalso. apply (H x). left. reflexivity. }
  generalize (@nil (text * json)). induction l as [|[k' x] l IH]; intro acc; [|apply IH].
  cbn [app json_object]. apply A; [exact H|]. rewrite assoc_dict_set, text_eqb_refl. reflexivity.
Qed.

(** "$[*].k": the non-null k of the elements, in order. *)
Theorem json_wildcard_elements : forall l k, plain k ->
  json_extract loads (JArr l) [t "$[*]." ++ k] =
  Ok (JArr (filter (fun v => match v with JNull => false | _ => true end)
     (map (fun x => match x with JObj m => match assoc k m with Some v => v | None => JNull end | _ => JNull end) l))).
Proof.
  intros l k (K1 & K2 & K3). unfold json_extract. cbn [decode extract_all]. unfold get_path. cbn [jnone bind].
  assert (path_keys (t "$[*]." ++ k) = [KName star; KName k]) as ->.
  { unfold path_keys, parse_path. change (strip_root (t "$[*]." ++ k)) with (t "[*]." ++ k).
    assert (E : strip is_dot (46%N :: k) = k).
    { destruct (strip_dots [Name k] [46%N :: k]) as [E _]; [repeat constructor; assumption|].
      cbn [concat app drop_dot] in E. rewrite app_nil_r in E. exact E. }
    destruct (clean_not_in _ K2) as (N1 & N2 & N3).
    change (t "[*]." ++ k) with (91%N :: 42%N :: 93%N :: 46%N :: k). set (f := length _). cbn [parse_fuel].
    cbn [index_of N.eqb Pos.eqb option_map]. cbn [Nat.ltb Nat.leb app firstn skipn Nat.sub Nat.add]. rewrite E.
    assert (parse_fuel f k = [KName k]) as P.
    { destruct f as [|f'] eqn:F; [discriminate|]. cbn [parse_fuel]. destruct k; [congruence|].
      rewrite !index_of_none by assumption. reflexivity. }
    destruct k as [|c k]; [congruence|]. rewrite P. reflexivity. }
  cbn [get_value]. change (text_eqb star star) with true. cbn [bind]. do 2 f_equal.
  assert (text_eqb k star = false) as -> by (apply text_eqb_neq; exact K3).
  induction l as [|x l IH]; [reflexivity|]. cbn [map filter].
  rewrite IH. destruct x as [| | | |m]; try reflexivity. destruct (assoc k m) as [[]|]; reflexivity.
Qed.
End P.

Print Assumptions json_text_argument. Print Assumptions json_extract_path. Print Assumptions json_extract_string_index_refuted.
Print Assumptions json_extract_many. Print Assumptions json_set_existing. Print Assumptions json_set_new_member.
Print Assumptions json_set_append. Print Assumptions json_set_missing_level. Print Assumptions json_set_root_refuted.
Print Assumptions json_remove_member. Print Assumptions json_remove_element.
Print Assumptions json_remove_absent. Print Assumptions json_remove_through_index_refuted.
Print Assumptions json_contains_path_one_all. Print Assumptions json_contains_null_member_refuted.
Print Assumptions json_depth_levels. Print Assumptions json_length_keys. Print Assumptions json_object_last.
Print Assumptions json_wildcard_elements.

(** The hypotheses are met: {"a": [1, {"b": 2}], "c": 3} and the path $.a[1].b *)
Definition jdoc : json :=
  JObj [(t "a", JArr [JScalar (VInt 1); JObj [(t "b", JScalar (VInt 2))]]); (t "c", JScalar (VInt 3))].
Definition jsteps : list step := [Name (t "a"); Idx 1; Name (t "b")].
Example json_examples :
  container jdoc /\ path_text jsteps (t "$.a[1].b") /\ at_path jdoc jsteps (JScalar (VInt 2)) /\
  disjoint jsteps [Name (t "c")] /\ path_text [Idx 1; Name (t "b")] (t "$[1].b") /\ plain (t "b").
Proof.
  assert (PA : plain (t "a")) by (repeat split; try discriminate; repeat constructor; discriminate).
  assert (PB : plain (t "b")) by (repeat split; try discriminate; repeat constructor; discriminate).
  assert (I1 : step_text (Idx 1) (t "[1]")).
  { apply (st_idx (t "1")). split; [discriminate|]. repeat constructor; unfold digit; cbn; lia. }
  split; [exact I|]. split; [|split; [|split; [|split]]].
  - exists [t ".a"; t "[1]"; t ".b"]. split; [|reflexivity].
    constructor; [apply (st_name (t "a")), PA|]. constructor; [exact I1|]. constructor; [apply (st_name (t "b")), PB|constructor].
  - apply at_path_iff. reflexivity.
  - split; intros r E; discriminate E.
  - exists [t "[1]"; t ".b"]. split; [|reflexivity]. constructor; [exact I1|]. constructor; [apply (st_name (t "b")), PB|constructor].
  - exact PB.
Qed.
(** A name between brackets and double quotes may contain dots and brackets. *)
Example json_quoted_step : path_text [Name (t "a.b[c"); Idx 0; Name (t "d")] (t "$[""a.b[c""][0].d").
Proof.
  exists [t "[""a.b[c""]"; t "[0]"; t ".d"]. split; [|reflexivity]. apply Forall2_cons; [|apply Forall2_cons; [|apply Forall2_cons; [|constructor]]].
  - apply (st_quoted (t "a.b[c")); [intro H; repeat destruct H as [H|H]; discriminate H || contradiction|discriminate].
  - apply (st_idx (t "0")). split; [discriminate|]. repeat constructor; cbn; lia.
  - apply (st_name (t "d")). split; [discriminate|]. split; [repeat constructor; discriminate|discriminate].
Qed.

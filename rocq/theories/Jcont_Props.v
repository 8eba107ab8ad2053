(** C244, C245, C246: JSON_CONTAINS and JSON_VALID. *)
From Verif Require Import Base PyVal Utils_Model Utils_Spec Utils_Proofs Agg_Model Json_Model Json_Spec Json_Proofs Json_Props Jcont_Model Jcont_Spec.
Open Scope nat_scope.

(** Induction over documents. *)
Fixpoint doc_induction (P : json -> Prop) (hn : P JNull) (hs : forall v, P (JScalar v)) (ht : forall s, P (JStr s))
  (ha : forall l, (forall x, In x l -> P x) -> P (JArr l)) (ho : forall m, (forall k x, In (k, x) m -> P x) -> P (JObj m)) (d : json) : P d :=
  match d with
  | JNull => hn
  | JScalar v => hs v
  | JStr s => ht s
  | JArr l => ha l ((fix go l : forall x, In x l -> P x :=
      match l with
      | [] => fun x I => match I with end
      | a :: r => fun x I => match I with or_introl e => eq_ind a P (doc_induction P hn hs ht ha ho a) x e | or_intror I' => go r x I' end
      end) l)
  | JObj m => ho m ((fix go m : forall k x, In (k, x) m -> P x :=
      match m with
      | [] => fun k x I => match I with end
      | (k0, a) :: r => fun k x I => match I with
          | or_introl e => eq_ind a P (doc_induction P hn hs ht ha ho a) x (f_equal snd e) | or_intror I' => go r k x I' end
      end) m)
  end.

Lemma assoc_in : forall m k (y : json), NoDup (map fst m) -> (assoc k m = Some y <-> In (k, y) m).
Proof.
  induction m as [|[k' x] m IH]; intros k y N; [split; [discriminate|intros []]|]. cbn [map fst] in N. inversion N as [|? ? N1 N2]; subst. cbn [assoc].
  destruct (text_eqb k k') eqn:E.
  - apply text_eqb_spec in E. subst k'. split; [intros H; left; congruence|]. intros [H|H]; [congruence|]. exfalso. apply N1. apply in_map_iff. exists (k, y). split; [reflexivity|exact H].
  - apply text_eqb_neq in E. rewrite (IH k y N2). split; [intros H; right; exact H|]. intros [H|H]; [congruence|exact H].
Qed.
Lemma arr_go : forall l l', (forall x, In x l -> forall y, In y l' -> (jeq x y = true <-> same_json x y)) ->
  (jeq (JArr l) (JArr l') = true <-> length l = length l' /\ forall i x y, nth_error l i = Some x -> nth_error l' i = Some y -> same_json x y).
Proof.
  induction l as [|a l IH]; intros [|b l'] H.
  - split; [intros _; split; [reflexivity|intros [|i] x y E; discriminate E]|reflexivity].
  - split; [discriminate|intros [E _]; discriminate E].
  - split; [discriminate|intros [E _]; discriminate E].
  - change (jeq (JArr (a :: l)) (JArr (b :: l'))) with (jeq a b && jeq (JArr l) (JArr l')). rewrite andb_true_iff.
    rewrite (IH l') by (intros x Ix y Iy; apply H; right; assumption). rewrite (H a (or_introl eq_refl) b (or_introl eq_refl)). cbn [length]. split.
    + intros (S & L & Q). split; [congruence|]. intros [|i] x y Ex Ey; [cbn in Ex, Ey; congruence|exact (Q i x y Ex Ey)].
    + intros (L & Q). split; [exact (Q 0 a b eq_refl eq_refl)|]. split; [congruence|]. intros i x y Ex Ey. exact (Q (S i) x y Ex Ey).
Qed.
Lemma obj_go : forall m m', jeq (JObj m) (JObj m') = true <->
  length m = length m' /\ forall k x, In (k, x) m -> exists y, assoc k m' = Some y /\ jeq x y = true.
Proof.
  intros m m'. change (jeq (JObj m) (JObj m')) with (Nat.eqb (length m) (length m') &&
    (fix go (m : list (text * json)) : bool := match m with [] => true | (k, x) :: r => match assoc k m' with Some y => jeq x y | None => false end && go r end) m).
  rewrite andb_true_iff, Nat.eqb_eq.
  assert (G : (fix go (m : list (text * json)) : bool := match m with [] => true | (k, x) :: r => match assoc k m' with Some y => jeq x y | None => false end && go r end) m = true <->
    forall k x, In (k, x) m -> exists y, assoc k m' = Some y /\ jeq x y = true).
  { clear. induction m as [|[k x] m IH]; [split; [intros _ k x []|reflexivity]|]. rewrite andb_true_iff. rewrite IH. split.
    - intros (A & Q) k' x' [E|I]; [|exact (Q k' x' I)]. injection E as <- <-. destruct (assoc k m') as [y|]; [|discriminate A]. exists y. split; [reflexivity|exact A].
    - intros Q. split; [|intros k' x' I; apply Q; right; exact I]. destruct (Q k x (or_introl eq_refl)) as (y & -> & E). exact E. }
  rewrite G. reflexivity.
Qed.
Lemma keys_incl : forall (m m' : list (text * json)), NoDup (map fst m) -> NoDup (map fst m') -> (forall k, (exists x, In (k, x) m) -> exists y, In (k, y) m') ->
  (length m = length m' <-> forall k, (exists y, In (k, y) m') -> exists x, In (k, x) m).
Proof.
  intros m m' N N' H.
  assert (K : forall k (l : list (text * json)), In k (map fst l) <-> exists x, In (k, x) l).
  { intros k l. rewrite in_map_iff. split; [intros ([k' x] & <- & I); exists x; exact I|intros (x & I); exists (k, x); split; [reflexivity|exact I]]. }
  split.
  - intros L k E. apply K. apply K in E. revert k E. change (incl (map fst m') (map fst m)). apply NoDup_length_incl; [exact N|rewrite !map_length; lia|].
    intros k I. apply K, H, K, I.
  - intros H'. rewrite <- (map_length fst m), <- (map_length fst m'). apply Nat.le_antisymm; apply NoDup_incl_length; try assumption.
    + intros k I. apply K, H, K, I.
    + intros k I. apply K, H', K, I.
Qed.
Lemma jeq_same : forall a b, well_formed a -> well_formed b -> (jeq a b = true <-> same_json a b).
Proof.
  intro a. induction a as [|v|s|l IH|m IH] using doc_induction; intros b Wa Wb.
  - destruct b; (split; [try discriminate; intros _; constructor|intros S; inversion S; reflexivity]).
  - destruct b as [|w|?|?|?]; (split; [try discriminate; intros E; apply same_scalar; exact E|intros S; inversion S; assumption]).
  - destruct b as [|?|r|?|?]; (split; [try discriminate; intros E; apply text_eqb_spec in E; subst; constructor|intros S; inversion S; apply text_eqb_refl]).
  - destruct b as [|?|?|l'|?]; try (split; [discriminate|intros S; inversion S]). inversion Wa as [| | |? Wl|]; subst. inversion Wb as [| | |? Wl'|]; subst.
    rewrite arr_go by (intros x Ix y Iy; apply IH; auto). split; [intros (L & Q); apply same_array; assumption|intros S; inversion S; subst; split; assumption].
  - destruct b as [|?|?|?|m']; try (split; [discriminate|intros S; inversion S]). inversion Wa as [| | | |? N Wm]; subst. inversion Wb as [| | | |? N' Wm']; subst.
    rewrite obj_go. split.
    + intros (L & Q).
      assert (H : forall k, (exists x, In (k, x) m) -> exists y, In (k, y) m').
      { intros k (x & I). destruct (Q k x I) as (y & A & _). exists y. apply assoc_in; assumption. }
      apply same_object.
      * intros k. split; [apply H|]. revert k. apply (proj1 (keys_incl m m' N N' H) L).
      * intros k x y I I'. destruct (Q k x I) as (y' & A & E). apply (assoc_in m' k y N') in I'. assert (y' = y) by congruence. subst y'.
        apply (IH k x I); [exact (Wm k x I)|exact (Wm' k y (proj1 (assoc_in m' k y N') I'))|exact E].
    + intros S. inversion S as [| | | |? ? K Q]; subst. split.
      * apply (keys_incl m m' N N'); intros k; apply K.
      * intros k x I. destruct (proj1 (K k) (ex_intro _ x I)) as (y & I'). exists y. split; [apply assoc_in; assumption|].
        apply (IH k x I); [exact (Wm k x I)|exact (Wm' k y I')|exact (Q k x y I I')].
Qed.
Lemma at_path_wf : forall s d x, at_path d s x -> well_formed d -> well_formed x.
Proof.
  intros s d x A. induction A as [d|m k x s y E A IH|l n x s y E A IH]; intros W; [exact W| |]; apply IH; inversion W; subst.
  - apply entry_iff in E. match goal with H : NoDup _ |- _ => apply (assoc_in m k x H) in E end. eauto.
  - apply nth_error_In in E. auto.
Qed.

Section P.
Variable loads : text -> option json.
Lemma contains_eq : forall d c s p, container d -> path_text s p -> json_contains loads d c p = Ok (if jeq (get_value d (map key_of s)) (decode loads c) then 1 else 0)%Z.
Proof.
  intros d c s p C H. unfold json_contains. rewrite (decode_container loads d C). unfold get_path. rewrite (jnone_container d C). cbn [bind]. rewrite (path_keys_text s p H). reflexivity.
Qed.

(** C244.  JSON_CONTAINS(document, candidate, path) is 1 exactly when the path leads to a part of the document that is the same JSON value as the candidate, and 0
    otherwise: numbers are compared by value, arrays element by element, objects member by member in any order.  The candidate is not null, or the path leads somewhere;
    no step is an index into a string. *)
Theorem json_contains_same : forall d c s p, container d -> path_text s p -> well_formed d -> well_formed c -> (forall w, c <> JStr w) ->
  (forall s1 n s2 w, s = s1 ++ Idx n :: s2 -> ~ at_path d s1 (JStr w)) -> c <> JNull \/ (exists x, at_path d s x) ->
  (json_contains loads d c p = Ok 1%Z <-> exists x, at_path d s x /\ same_json x c) /\
  (json_contains loads d c p = Ok 0%Z <-> ~ exists x, at_path d s x /\ same_json x c).
Proof.
  intros d c s p C H Wd Wc Hc Hs Hn. pose proof (path_text_nostar _ _ H) as F. rewrite (contains_eq d c s p C H).
  assert (decode loads c = c) as -> by (destruct c; try reflexivity; exfalso; eapply Hc; reflexivity).
  assert (G : jeq (get_value d (map key_of s)) c = true <-> exists x, at_path d s x /\ same_json x c).
  { destruct (look d s) as [x|] eqn:L.
    - rewrite (get_look s d x F L). assert (A : at_path d s x) by (apply at_path_iff; exact L). rewrite jeq_same by (first [exact Wc|exact (at_path_wf s d x A Wd)]).
      split; [intros S; exists x; split; assumption|]. intros (x' & A' & S). apply at_path_iff in A'. assert (x' = x) by congruence. subst x'. exact S.
    - assert (NA : forall x, ~ at_path d s x) by (apply no_path_iff; exact L). rewrite get_look_none; [|exact F| |exact L].
      + split; [|intros (x & A & _); destruct (NA x A)]. intros E. exfalso. destruct Hn as [Hn|(x & A)]; [|exact (NA x A)]. destruct c; try discriminate E. apply Hn. reflexivity.
      + intros s1 n s2 w E K. apply (Hs s1 n s2 w E). apply at_path_iff, K. }
  destruct (jeq _ c) eqn:E; rewrite <- G; (split; split; intros X; try reflexivity; try discriminate).
  exfalso. apply X. reflexivity.
Qed.
(** The document and the candidate may be given as JSON text. *)
Theorem json_contains_text : forall w d w' c p, loads w = Some d -> container d -> loads w' = Some c -> (forall r, c <> JStr r) ->
  json_contains loads (JStr w) c p = json_contains loads d c p /\ json_contains loads d (JStr w') p = json_contains loads d c p /\
  json_contains loads (JStr w) (JStr w') p = json_contains loads d c p.
Proof.
  intros w d w' c p L C L' N. unfold json_contains. assert (decode loads d = d) as -> by exact (decode_container loads d C).
  assert (decode loads c = c) as -> by (destruct c; try reflexivity; exfalso; eapply N; reflexivity). cbn [decode]. rewrite L, L'. repeat split; reflexivity.
Qed.

(** C245.  It is not containment: [1, 2] contains 1 and {"a": 1, "b": 2} contains {"a": 1}, and the answers are 0; a path that leads nowhere holds null. *)
Theorem json_contains_refuted :
  let one := JScalar (VInt 1) in let two := JScalar (VInt 2) in
  let l := JArr [one; two] in let m := JObj [(t "a", one); (t "b", two)] in let c := JObj [(t "a", one)] in
  (contains l one /\ json_contains loads l one (t "$") = Ok 0%Z) /\ (contains m c /\ json_contains loads m c (t "$") = Ok 0%Z) /\
  ((forall x, ~ at_path m [Name (t "z")] x) /\ json_contains loads m JNull (t "$.z") = Ok 1%Z).
Proof.
  cbv zeta. assert (S1 : contains (JScalar (VInt 1)) (JScalar (VInt 1))) by (apply c_same; [intros []|intros []|apply same_scalar; reflexivity]).
  split; [|split].
  - split; [|reflexivity]. apply c_elem with (x := JScalar (VInt 1)); [discriminate|left; reflexivity|exact S1].
  - split; [|reflexivity]. apply c_object. intros k y [E|[]]. injection E as <- <-. exists (JScalar (VInt 1)). split; [left; reflexivity|exact S1].
  - split; [|reflexivity]. apply no_path_iff. reflexivity.
Qed.
(** What is left of containment: when the answer is 1 the part at the path contains the candidate. *)
Lemma same_contains : forall a b, well_formed a -> same_json a b -> contains a b.
Proof.
  intro a. induction a as [|v|s|l IH|m IH] using doc_induction; intros b W S; inversion S as [|? ? E|?|? l' L Q|? m' K Q]; subst.
  - apply c_same; [intros []|intros []|exact S].
  - apply c_same; [intros []|intros []|exact S].
  - apply c_same; [intros []|intros []|exact S].
  - inversion W; subst. apply c_array. intros y I. apply In_nth_error in I as (i & Hi). destruct (nth_error l i) as [x|] eqn:Ex.
    + assert (Ix : In x l) by (apply nth_error_In in Ex; exact Ex). exists x. split; [exact Ix|]. apply IH; [exact Ix|auto|exact (Q i x y Ex Hi)].
    + apply nth_error_None in Ex. assert (i < length l') by (apply nth_error_Some; congruence). lia.
  - inversion W; subst. apply c_object. intros k y I. destruct (proj2 (K k) (ex_intro _ y I)) as (x & Ix). exists x. split; [exact Ix|]. apply (IH k x Ix); [eauto|exact (Q k x y Ix I)].
Qed.
Theorem json_contains_sound_partial : forall d c s p, container d -> path_text s p -> well_formed d -> well_formed c -> (forall w, c <> JStr w) ->
  (forall s1 n s2 w, s = s1 ++ Idx n :: s2 -> ~ at_path d s1 (JStr w)) -> c <> JNull \/ (exists x, at_path d s x) ->
  json_contains loads d c p = Ok 1%Z -> exists x, at_path d s x /\ contains x c.
Proof.
  intros d c s p C H Wd Wc Hc Hs Hn E. apply (proj1 (json_contains_same d c s p C H Wd Wc Hc Hs Hn)) in E as (x & A & S). exists x. split; [exact A|].
  apply same_contains; [exact (at_path_wf s d x A Wd)|exact S].
Qed.

(** C246.  JSON_VALID of a text is 1 exactly when JSON_CONTAINS, JSON_EXTRACT and the other functions take it as a document instead of as a string; *)
Theorem json_valid_text : forall w,
  (json_valid loads (JStr w) = 1%Z <-> exists d, loads w = Some d) /\ (json_valid loads (JStr w) = 0%Z <-> loads w = None).
Proof. intros w. cbn [json_valid]. destruct (loads w); split; split; intros H; try discriminate; try reflexivity; try (eexists; reflexivity). destruct H; discriminate. Qed.
Theorem json_valid_extract : forall w d, json_valid loads (JStr w) = 1%Z -> loads w = Some d -> container d -> json_extract loads (JStr w) [t "$"] = Ok d.
Proof. intros w d V L C. unfold json_extract. cbn [decode]. rewrite L. cbn [extract_all]. unfold get_path. rewrite (jnone_container d C). reflexivity. Qed.
Theorem json_invalid_extract : forall w, json_valid loads (JStr w) = 0%Z -> json_extract loads (JStr w) [t "$"] = Ok (JStr w).
Proof. intros w V. unfold json_extract. cbn [decode json_valid] in *. destruct (loads w); [discriminate|]. reflexivity. Qed.
(** of NULL it is 1 (MySQL: NULL). *)
Theorem json_valid_null_refuted : json_valid loads JNull = 1%Z.
Proof. reflexivity. Qed.
End P.
Print Assumptions json_contains_same. Print Assumptions json_contains_text. Print Assumptions json_contains_refuted. Print Assumptions json_contains_sound_partial.
Print Assumptions json_valid_text. Print Assumptions json_valid_extract. Print Assumptions json_invalid_extract. Print Assumptions json_valid_null_refuted.

Ltac nodup_keys := repeat (apply NoDup_cons; [intros HIn; repeat (destruct HIn as [HIn|HIn]; [discriminate HIn|]); exact HIn|]); apply NoDup_nil.
(** The hypotheses are met: {"a": [1, {"b": 2, "c": true}]}, the path $.a[1] and the candidate {"c": 1, "b": 2}. *)
Definition cdoc : json := JObj [(t "a", JArr [JScalar (VInt 1); JObj [(t "b", JScalar (VInt 2)); (t "c", JScalar (VBool true))]])].
Definition ccand : json := JObj [(t "c", JScalar (VInt 1)); (t "b", JScalar (VInt 2))].
Example json_contains_case : forall loads,
  container cdoc /\ path_text [Name (t "a"); Idx 1] (t "$.a[1]") /\ well_formed cdoc /\ well_formed ccand /\ (forall w, ccand <> JStr w) /\
  (forall s1 n s2 w, [Name (t "a"); Idx 1] = s1 ++ Idx n :: s2 -> ~ at_path cdoc s1 (JStr w)) /\ ccand <> JNull /\ json_contains loads cdoc ccand (t "$.a[1]") = Ok 1%Z.
Proof.
  intros loads.
  assert (W1 : forall v, well_formed (JScalar v)) by (intros v; constructor).
  split; [exact I|]. split; [|split; [|split; [|split; [discriminate|split; [|split; [discriminate|reflexivity]]]]]].
  - exists [t ".a"; t "[1]"]. split; [|reflexivity]. constructor; [apply (st_name (t "a")); repeat split; try discriminate; repeat constructor; discriminate|].
    constructor; [|constructor]. apply (st_idx (t "1")). split; [discriminate|]. repeat constructor; unfold digit; cbn; lia.
  - apply wf_object; [nodup_keys|]. intros k x [E|[]]. injection E as <- <-. apply wf_array. intros x [<-|[<-|[]]]; [apply W1|]. apply wf_object; [nodup_keys|].
    intros k x [E|[E|[]]]; injection E as <- <-; apply W1.
  - apply wf_object; [nodup_keys|]. intros k x [E|[E|[]]]; injection E as <- <-; apply W1.
  - intros [|a [|b s1]] n s2 w E; cbn [app] in E; [discriminate E| |destruct s1; discriminate E]. injection E as <- _ _. intros A. apply at_path_iff in A. discriminate A.
Qed.

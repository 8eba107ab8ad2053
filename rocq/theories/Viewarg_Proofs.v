(** The regular expression of virtual views finds the placeholders that are written, as in Interp_Props. *)
From Verif Require Import Base PyVal Str_Model Str_Proofs Interp_Model Interp_Props Viewarg_Spec Viewarg_Model.
Local Open Scope nat_scope.

(** Placeholders as the regular expression sees them. *)
Inductive raw := RLit (s : text) | Hole (name : text) (default : option text).
Definition source_raw (p : raw) : text :=
  match p with
  | RLit s => s
  | Hole n None => t "#{" ++ n ++ t "}"
  | Hole n (Some d) => t "#{" ++ n ++ t ":" ++ d ++ t "}"
  end.
Definition render_raw (ps : list raw) : text := concat (map source_raw ps).
Definition name_ok (uword : N -> bool) (n : text) : Prop := n <> [] /\ Forall (name_char uword) n.
Definition raw_ok (uword : N -> bool) (p : raw) : Prop :=
  match p with
  | RLit s => inert s
  | Hole n d => name_ok uword n /\ match d with Some d => no_hash d /\ ~ In 125%N d | None => True end
  end.

Section Proofs.
Variable uword : N -> bool.
Notation word := (Viewarg_Model.word uword).
Notation mark := (t "%s").
Lemma word_spec : forall c, word c = true <-> name_char uword c.
Proof.
  intro c. unfold Viewarg_Model.word, name_char. rewrite !orb_true_iff, !andb_true_iff, !N.leb_le, !N.eqb_eq. tauto.
Qed.

(** (name, group 2) of a placeholder *)
Definition key (n : text) (d : option text) : text * text := (n, match d with None => [] | Some d => 58%N :: d end).
Lemma source_key : forall n d, source_raw (Hole n d) = placeholder (key n d).
Proof. intros n [d|]; unfold source, placeholder, key; cbn [fst snd]; [cbn; reflexivity|reflexivity]. Qed.

Lemma span_word_app : forall n r, Forall (name_char uword) n -> (match r with [] => True | c :: _ => word c = false end) -> span_word uword (n ++ r) = (n, r).
Proof.
  induction n as [|c n IH]; intros r F H.
  - destruct r as [|c r]; [reflexivity|]. cbn. rewrite H. reflexivity.
  - inversion F; subst. cbn [app span_word]. assert (word c = true) as -> by (apply word_spec; assumption). rewrite IH by assumption. reflexivity.
Qed.
Lemma until_close_app : forall d r, ~ In 125%N d -> until_close (d ++ 125%N :: r) = Some (d, r).
Proof.
  induction d as [|c d IH]; intros r H; [reflexivity|]. cbn [app until_close].
  destruct (N.eqb_spec c 125); [exfalso; apply H; left; auto|]. rewrite IH; [reflexivity|]. intro X. apply H. right. exact X.
Qed.
Definition hole_ok (n : text) (d : option text) : Prop := raw_ok uword (Hole n d).
Lemma match_hole : forall n d r, hole_ok n d ->
  match_arg uword (n ++ snd (key n d) ++ 125%N :: r) = Some (n, snd (key n d), r).
Proof.
  intros n d r [[Nn F] H]. unfold match_arg, key. destruct n as [|c n]; [contradiction|]. destruct d as [d|]; cbn [snd].
  - rewrite (span_word_app (c :: n)); [|exact F|reflexivity]. cbn [app]. destruct H as [_ H]. rewrite until_close_app by exact H. reflexivity.
  - cbn [app]. rewrite app_comm_cons. rewrite (span_word_app (c :: n)); [|exact F|reflexivity]. reflexivity.
Qed.
Lemma source_shape : forall n d r, source_raw (Hole n d) ++ r = 35%N :: 123%N :: n ++ snd (key n d) ++ 125%N :: r.
Proof. intros n d r. rewrite source_key. unfold placeholder. cbn [fst snd key]. rewrite <- !app_assoc. reflexivity. Qed.

(** No placeholder starts inside an inert literal. *)
Lemma inert_tail : forall c s, inert (c :: s) -> inert s.
Proof. intros c s [H1 H2]. split; [intros a b E; apply (H1 (c :: a) b)|intros a E; apply (H2 (c :: a))]; rewrite E; reflexivity. Qed.
Lemma inert_head : forall s r, inert (35%N :: s) -> forall x, s ++ r <> 123%N :: x.
Proof.
  intros [|c s] r [H1 H2] x E; [apply (H2 []); reflexivity|]. cbn in E. injection E as -> _. apply (H1 [] s). reflexivity.
Qed.
Lemma find_all_step : forall f c r, (c = 35%N -> forall x, r <> 123%N :: x) -> find_all uword (S f) (c :: r) = find_all uword f r.
Proof.
  intros f c r H. cbn [find_all]. destruct (N.eqb_spec c 35) as [->|Nc].
  - destruct r as [|d r]; [reflexivity|]. destruct (N.eqb_spec d 123) as [->|Nd]; [exfalso; exact (H eq_refl r eq_refl)|].
    destruct d as [|p]; [reflexivity|]. repeat (destruct p as [p|p|]; try reflexivity). contradiction Nd. reflexivity.
  - destruct c as [|p]; [reflexivity|]. repeat (destruct p as [p|p|]; try reflexivity). contradiction Nc. reflexivity.
Qed.
Lemma find_all_inert : forall s f r, inert s -> length s <= f -> find_all uword f (s ++ r) = find_all uword (f - length s) r.
Proof.
  induction s as [|c s IH]; intros f r H L; [cbn; rewrite Nat.sub_0_r; reflexivity|].
  cbn [length] in *. destruct f as [|f]; [lia|]. cbn [app]. rewrite find_all_step.
  - rewrite IH; [reflexivity|apply (inert_tail c), H|lia].
  - intros ->. apply inert_head, H.
Qed.
Definition keys (ps : list raw) : list (text * text) :=
  concat (map (fun p => match p with RLit _ => [] | Hole n d => [key n d] end) ps).
Lemma find_all_render_raw : forall ps f, Forall (raw_ok uword) ps -> length (render_raw ps) < f -> find_all uword f (render_raw ps) = keys ps.
Proof.
  induction ps as [|[s|n d] ps IH]; intros f F L.
  - destruct f; reflexivity.
  - inversion F as [|x y Hs F']; subst. unfold render_raw in *. cbn [map concat source] in *. rewrite app_length in L.
    rewrite find_all_inert by (try exact Hs; lia). apply IH; [exact F'|lia].
  - inversion F as [|x y Hs F']; subst. unfold render_raw in *. cbn [map concat] in *. rewrite source_shape.
    rewrite app_length in L. destruct f as [|f]; [lia|].
    assert (length (source_raw (Hole n d)) > 0) by (rewrite <- (app_nil_r (source_raw _)), source_shape; cbn; lia).
    cbn [find_all]. rewrite match_hole by exact Hs. rewrite IH; [reflexivity|exact F'|lia].
Qed.

(** Replacing one placeholder text throughout. *)
Definition subst (x : text * text) (v : text) (p : raw) : raw :=
  match p with
  | RLit s => RLit s
  | Hole n d => if text_eqb (placeholder (key n d)) (placeholder x) then RLit v else Hole n d
  end.
Lemma one_close : forall n d, hole_ok n d -> exists w, placeholder (key n d) = w ++ [125%N] /\ ~ In 125%N w /\ exists w', w = 35%N :: 123%N :: w' /\ ~ In 35%N w'.
Proof.
  intros n d [[_ F] H]. exists (35%N :: 123%N :: n ++ snd (key n d)). split.
  - unfold placeholder. cbn [fst snd key]. rewrite app_comm_cons, app_comm_cons, <- app_assoc. reflexivity.
  - assert (G : forall c, In c (n ++ snd (key n d)) -> c <> 35%N /\ c <> 125%N).
    { intros c I. apply in_app_or in I. destruct I as [I|I].
      - rewrite Forall_forall in F. apply F in I. unfold name_char in I. lia.
      - destruct d as [d|]; cbn [snd key] in I; [|contradiction]. destruct I as [<-|I]; [lia|]. destruct H as [H1 H2]. split; intros ->; [apply H1, I|apply H2, I]. }
    split.
    + intros [X|[X|X]]; [discriminate X|discriminate X|]. apply (proj2 (G _ X)). reflexivity.
    + exists (n ++ snd (key n d)). split; [reflexivity|]. intro X. apply (proj1 (G _ X)). reflexivity.
Qed.
Lemma first_close_unique : forall w w' r r', ~ In 125%N w -> ~ In 125%N w' -> w ++ 125%N :: r = w' ++ 125%N :: r' -> w = w'.
Proof.
  induction w as [|c w IH]; intros [|c' w'] r r' H H' E; [reflexivity| | |].
  - cbn in E. injection E as <- _. exfalso. apply H'. left. reflexivity.
  - cbn in E. injection E as -> _. exfalso. apply H. left. reflexivity.
  - cbn in E. injection E as -> E. f_equal. apply (IH w' r r'); [intro X; apply H; right; exact X|intro X; apply H'; right; exact X|exact E].
Qed.
Lemma replace_inert : forall old new s r, (exists w, old = 35%N :: 123%N :: w) -> inert s ->
  py_replace (s ++ r) old new = s ++ py_replace r old new.
Proof.
  intros old new s r [w ->]. induction s as [|c s IH]; intro H; [reflexivity|]. cbn [app].
  rewrite replace_skip; [rewrite IH by (apply (inert_tail c), H); reflexivity|discriminate|].
  destruct (prefixb _ (c :: s ++ r)) eqn:E; [|reflexivity]. exfalso. apply prefixb_spec in E. destruct E as [x E]. cbn in E.
  injection E as -> E. apply (inert_head s r H _ E).
Qed.
Lemma replace_no_hash : forall old new s r, (exists w, old = 35%N :: w) -> ~ In 35%N s ->
  py_replace (s ++ r) old new = s ++ py_replace r old new.
Proof.
  intros old new s r [w ->]. induction s as [|c s IH]; intro H; [reflexivity|]. cbn [app].
  rewrite replace_skip; [rewrite IH; [reflexivity|intro X; apply H; right; exact X]|discriminate|].
  cbn [prefixb]. destruct (N.eqb_spec 35 c) as [<-|]; [exfalso; apply H; left; reflexivity|reflexivity].
Qed.
Lemma no_hash_inert : forall s, no_hash s -> inert s.
Proof.
  intros s H. split; [intros a b E|intros a E]; apply H; rewrite E; apply in_or_app; right; left; reflexivity.
Qed.
Lemma replace_render_raw : forall n0 d0 v ps, hole_ok n0 d0 -> Forall (raw_ok uword) ps ->
  py_replace (render_raw ps) (placeholder (key n0 d0)) v = render_raw (map (subst (key n0 d0) v) ps).
Proof.
  intros n0 d0 v ps H0. destruct (one_close n0 d0 H0) as (w & Ew & Cw & w' & Ew' & Dw').
  assert (NE : placeholder (key n0 d0) <> []) by (rewrite Ew, Ew'; discriminate).
  induction ps as [|p ps IH]; intro F; [apply replace_nil, NE|]. inversion F as [|x y Hp F']; subst x y. unfold render_raw in *. cbn [map concat].
  destruct p as [s|n d].
  - cbn [source_raw subst]. rewrite replace_inert; [rewrite IH by exact F'; reflexivity| |exact Hp]. exists (w' ++ [125%N]). rewrite Ew, Ew'. reflexivity.
  - cbn [subst]. rewrite source_key. destruct (text_eqb (placeholder (key n d)) (placeholder (key n0 d0))) eqn:E.
    + apply text_eqb_spec in E. rewrite E, replace_hit by exact NE. rewrite IH by exact F'. reflexivity.
    + apply text_eqb_neq in E. rewrite source_key. destruct (one_close n d Hp) as (u & Eu & Cu & u' & Eu' & Du').
      rewrite Eu, Eu'. cbn [app]. rewrite replace_skip; [|exact NE|].
      * change (123%N :: (u' ++ [125%N]) ++ concat (map source_raw ps)) with ((123%N :: u' ++ [125%N]) ++ concat (map source_raw ps)).
        rewrite replace_no_hash; [rewrite IH by exact F'; reflexivity| |].
        -- exists (123%N :: w' ++ [125%N]). rewrite Ew, Ew'. reflexivity.
        -- intros [X|X]; [discriminate X|]. apply in_app_or in X. destruct X as [X|[X|[]]]; [apply Du', X|discriminate X].
      * destruct (prefixb _ _) eqn:P; [|reflexivity]. exfalso. apply prefixb_spec in P. destruct P as [x P].
        assert (K : u ++ 125%N :: concat (map source_raw ps) = w ++ 125%N :: x).
        { rewrite Ew in P. transitivity ((w ++ [125%N]) ++ x); [|rewrite <- app_assoc; reflexivity]. rewrite <- P, Eu'. cbn [app]. rewrite <- ?app_assoc. reflexivity. }
        apply first_close_unique in K; [|exact Cu|exact Cw]. apply E. rewrite Eu, Ew, K. reflexivity.
Qed.

Lemma key_inj : forall n d n' d', hole_ok n d -> hole_ok n' d' -> placeholder (key n d) = placeholder (key n' d') -> key n d = key n' d'.
Proof.
  intros n d n' d' [[N1 F] H] [[N1' F'] H'] E.
  assert (M : match_arg uword (n ++ snd (key n d) ++ 125%N :: []) = match_arg uword (n' ++ snd (key n' d') ++ 125%N :: [])).
  { unfold placeholder in E. cbn [fst snd key] in E. cbn in E. injection E as E. cbn [snd key]. rewrite E. reflexivity. }
  rewrite !match_hole in M by (split; [split|]; assumption). unfold key in *. cbn [snd] in *. congruence.
Qed.
Lemma expand_all : forall ks ps,
  Forall (raw_ok uword) ps -> Forall (fun k => exists n d, k = key n d /\ hole_ok n d /\ no_hash (mark)) ks ->
  (forall n d, In (Hole n d) ps -> In (key n d) ks) ->
  fold_left (fun sql x => py_replace sql (placeholder x) (mark)) ks (render_raw ps) =
  concat (map (fun p => match p with RLit s => s | Hole n d => mark end) ps).
Proof.
  induction ks as [|k ks IH]; intros ps F K C; cbn [fold_left].
  - unfold render_raw. f_equal. apply map_ext_in. intros [s|n d] I; [reflexivity|]. destruct (C n d I).
  - inversion K as [|x y Hk K']; subst. destruct Hk as (n0 & d0 & -> & H0 & D0). rewrite replace_render_raw by assumption. rewrite IH.
    + rewrite map_map. f_equal. apply map_ext_in. intros [s|n d] I; [reflexivity|]. cbn [subst].
      destruct (text_eqb _ _); reflexivity.
    + rewrite Forall_forall in *. intros p I. apply in_map_iff in I. destruct I as (q & <- & I). specialize (F q I).
      destruct q as [s|n d]; [exact F|]. cbn [subst]. destruct (text_eqb _ _); [|exact F]. apply no_hash_inert, D0.
    + exact K'.
    + intros n d I. apply in_map_iff in I. destruct I as (q & Eq & I). destruct q as [s|n' d']; [discriminate Eq|]. cbn [subst] in Eq.
      destruct (text_eqb _ _) eqn:E; [discriminate Eq|]. injection Eq as -> ->. destruct (C n d I) as [X|X]; [|exact X].
      exfalso. apply text_eqb_neq in E. apply E. rewrite X. reflexivity.
Qed.

End Proofs.

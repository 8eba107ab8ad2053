(** C07: interpolation of ${name} and ${name:default}. *)
From Verif Require Import Base PyVal Str_Model Str_Proofs Interp_Model Interp_Spec.
Local Open Scope nat_scope.

(** ** str.replace step by step *)
Lemma split_nonempty : forall d s k cur, split_go d k cur s <> [].
Proof. induction s as [|c s IH]; intros k cur; cbn; [discriminate|]. destruct k; [destruct (prefixb d (c :: s)); [discriminate|apply IH]|apply IH]. Qed.
Lemma join_cons : forall d a l, l <> [] -> join d (a :: l) = a ++ d ++ join d l.
Proof. intros d a [|b l] H; [contradiction|reflexivity]. Qed.
Lemma join_split_cur : forall d new s k cur, join new (split_go d k cur s) = rev cur ++ join new (split_go d k [] s).
Proof.
  intros d new. induction s as [|c s IH]; intros k cur; cbn [split_go].
  - cbn. rewrite app_nil_r. reflexivity.
  - destruct k as [|k]; [|apply IH]. destruct (prefixb d (c :: s)) eqn:E.
    + rewrite !join_cons by apply split_nonempty. reflexivity.
    + rewrite (IH 0 (c :: cur)), (IH 0 [c]). cbn [rev]. rewrite <- !app_assoc. reflexivity.
Qed.
Lemma replace_nil : forall old new, old <> [] -> py_replace [] old new = [].
Proof. intros [|c o] new H; [contradiction|reflexivity]. Qed.
Lemma replace_skip : forall old new c r, old <> [] -> prefixb old (c :: r) = false -> py_replace (c :: r) old new = c :: py_replace r old new.
Proof.
  intros [|x o] new c r H E; [contradiction|]. unfold py_replace. cbn [split_go]. rewrite E. rewrite join_split_cur. reflexivity.
Qed.
Lemma replace_hit : forall old new r, old <> [] -> py_replace (old ++ r) old new = new ++ py_replace r old new.
Proof.
  intros [|x o] new r H; [contradiction|]. unfold py_replace. cbn [app split_go].
  assert (prefixb (x :: o) (x :: o ++ r) = true) as -> by (apply prefixb_spec; exists r; reflexivity).
  rewrite join_cons by apply split_nonempty. cbn [rev app length]. rewrite Nat.sub_succ, Nat.sub_0_r, split_go_skip. reflexivity.
Qed.

Section Props.
Variable A : Type.
Variable str : A -> text.
Variable lower : text -> text.
Variable uword : N -> bool.
Variable call_default : text -> option text.
Variable get_value : text -> option (envval A).
Notation word := (word uword).
Notation compile := (compile_variable A str lower uword call_default get_value).
Notation value_of := (value_of A str lower call_default get_value).

Lemma word_spec : forall c, word c = true <-> name_char uword c.
Proof.
  intro c. unfold Interp_Model.word, name_char. rewrite !orb_true_iff, !andb_true_iff, !N.leb_le, !N.eqb_eq. tauto.
Qed.

(** (name, group 2) of a placeholder *)
Definition key (n : text) (d : option text) : text * text := (n, match d with None => [] | Some d => 58%N :: d end).
Lemma source_key : forall n d, source (Hole n d) = variable (key n d).
Proof. intros n [d|]; unfold source, variable, key; cbn [fst snd]; [cbn; reflexivity|reflexivity]. Qed.

Lemma span_word_app : forall n r, Forall (name_char uword) n -> (match r with [] => True | c :: _ => word c = false end) -> span_word uword (n ++ r) = (n, r).
Proof.
  induction n as [|c n IH]; intros r F H.
  - destruct r as [|c r]; [reflexivity|]. cbn. rewrite H. reflexivity.
  - inversion F; subst. cbn [app span_word]. assert (word c = true) as -> by (apply word_spec; assumption). rewrite IH by assumption. reflexivity.
Qed.
Lemma until_close_app : forall d r, ~ In 125%N d -> until_close (d ++ 125%N :: r) = Some (d, r).
Proof.
  induction d as [|c d IH]; intros r H; [reflexivity|]. cbn [app until_close].
  destruct (N.eqb_spec c 125); [exfalso; apply H; left; auto|]. rewrite IH; [reflexivity|]. intro X. apply H. right. exact X.
Qed.
Definition hole_ok (n : text) (d : option text) : Prop := piece_ok uword (Hole n d).
Lemma match_hole : forall n d r, hole_ok n d ->
  match_var uword (n ++ snd (key n d) ++ 125%N :: r) = Some (n, snd (key n d), r).
Proof.
  intros n d r [[Nn F] H]. unfold match_var, key. destruct n as [|c n]; [contradiction|]. destruct d as [d|]; cbn [snd].
  - rewrite (span_word_app (c :: n)); [|exact F|reflexivity]. cbn [app]. destruct H as [_ H]. rewrite until_close_app by exact H. reflexivity.
  - cbn [app]. rewrite app_comm_cons. rewrite (span_word_app (c :: n)); [|exact F|reflexivity]. reflexivity.
Qed.
Lemma source_shape : forall n d r, source (Hole n d) ++ r = 36%N :: 123%N :: n ++ snd (key n d) ++ 125%N :: r.
Proof. intros n d r. rewrite source_key. unfold variable. cbn [fst snd key]. rewrite <- !app_assoc. reflexivity. Qed.

(** No placeholder starts inside an inert literal. *)
Lemma inert_tail : forall c s, inert (c :: s) -> inert s.
Proof. intros c s [H1 H2]. split; [intros a b E; apply (H1 (c :: a) b)|intros a E; apply (H2 (c :: a))]; rewrite E; reflexivity. Qed.
Lemma inert_head : forall s r, inert (36%N :: s) -> forall x, s ++ r <> 123%N :: x.
Proof.
  intros [|c s] r [H1 H2] x E; [apply (H2 []); reflexivity|]. cbn in E. injection E as -> _. apply (H1 [] s). reflexivity.
Qed.
Lemma find_all_step : forall f c r, (c = 36%N -> forall x, r <> 123%N :: x) -> find_all uword (S f) (c :: r) = find_all uword f r.
Proof.
  intros f c r H. cbn [find_all]. destruct (N.eqb_spec c 36) as [->|Nc].
  - destruct r as [|d r]; [reflexivity|]. destruct (N.eqb_spec d 123) as [->|Nd]; [exfalso; exact (H eq_refl r eq_refl)|].
    destruct d as [|p]; [reflexivity|]. repeat (destruct p as [p|p|]; try reflexivity). contradiction Nd. reflexivity.
  - destruct c as [|p]; [reflexivity|]. repeat (destruct p as [p|p|]; try reflexivity). contradiction Nc. reflexivity.
Qed.
Lemma find_all_inert : forall s f r, inert s -> length s <= f -> find_all uword f (s ++ r) = find_all uword (f - length s) r.
Proof.
  induction s as [|c s IH]; intros f r H L; [cbn; rewrite Nat.sub_0_r; reflexivity|].
  cbn [length] in *. destruct f as [|f]; [lia|]. cbn [app]. rewrite find_all_step.
  - rewrite IH; [reflexivity|apply (inert_tail c), H|lia].
  - intros ->. apply inert_head, H.
Qed.
Definition keys (ps : list piece) : list (text * text) :=
  concat (map (fun p => match p with Lit _ => [] | Hole n d => [key n d] end) ps).
Lemma find_all_render : forall ps f, Forall (piece_ok uword) ps -> length (render ps) < f -> find_all uword f (render ps) = keys ps.
Proof.
  induction ps as [|[s|n d] ps IH]; intros f F L.
  - destruct f; reflexivity.
  - inversion F as [|x y Hs F']; subst. unfold render in *. cbn [map concat source] in *. rewrite app_length in L.
    rewrite find_all_inert by (try exact Hs; lia). apply IH; [exact F'|lia].
  - inversion F as [|x y Hs F']; subst. unfold render in *. cbn [map concat] in *. rewrite source_shape.
    rewrite app_length in L. destruct f as [|f]; [lia|].
    assert (length (source (Hole n d)) > 0) by (rewrite <- (app_nil_r (source _)), source_shape; cbn; lia).
    cbn [find_all]. rewrite match_hole by exact Hs. rewrite IH; [reflexivity|exact F'|lia].
Qed.

(** Replacing one placeholder text throughout. *)
Definition subst (x : text * text) (v : text) (p : piece) : piece :=
  match p with
  | Lit s => Lit s
  | Hole n d => if text_eqb (variable (key n d)) (variable x) then Lit v else Hole n d
  end.
Lemma one_close : forall n d, hole_ok n d -> exists w, variable (key n d) = w ++ [125%N] /\ ~ In 125%N w /\ exists w', w = 36%N :: 123%N :: w' /\ ~ In 36%N w'.
Proof.
  intros n d [[_ F] H]. exists (36%N :: 123%N :: n ++ snd (key n d)). split.
  - unfold variable. cbn [fst snd key]. rewrite app_comm_cons, app_comm_cons, <- app_assoc. reflexivity.
  - assert (G : forall c, In c (n ++ snd (key n d)) -> c <> 36%N /\ c <> 125%N).
    { intros c I. apply in_app_or in I. destruct I as [I|I].
      - rewrite Forall_forall in F. apply F in I. unfold name_char in I. lia.
      - destruct d as [d|]; cbn [snd key] in I; [|contradiction]. destruct I as [<-|I]; [lia|]. destruct H as [H1 H2]. split; intros ->; [apply H1, I|apply H2, I]. }
    split.
    + intros [X|[X|X]]; [discriminate X|discriminate X|]. apply (proj2 (G _ X)). reflexivity.
    + exists (n ++ snd (key n d)). split; [reflexivity|]. intro X. apply (proj1 (G _ X)). reflexivity.
Qed.
Lemma first_close_unique : forall w w' r r', ~ In 125%N w -> ~ In 125%N w' -> w ++ 125%N :: r = w' ++ 125%N :: r' -> w = w'.
Proof.
  induction w as [|c w IH]; intros [|c' w'] r r' H H' E; [reflexivity| | |].
  - cbn in E. injection E as <- _. exfalso. apply H'. left. reflexivity.
  - cbn in E. injection E as -> _. exfalso. apply H. left. reflexivity.
  - cbn in E. injection E as -> E. f_equal. apply (IH w' r r'); [intro X; apply H; right; exact X|intro X; apply H'; right; exact X|exact E].
Qed.
Lemma replace_inert : forall old new s r, (exists w, old = 36%N :: 123%N :: w) -> inert s ->
  py_replace (s ++ r) old new = s ++ py_replace r old new.
Proof.
  intros old new s r [w ->]. induction s as [|c s IH]; intro H; [reflexivity|]. cbn [app].
  rewrite replace_skip; [rewrite IH by (apply (inert_tail c), H); reflexivity|discriminate|].
  destruct (prefixb _ (c :: s ++ r)) eqn:E; [|reflexivity]. exfalso. apply prefixb_spec in E. destruct E as [x E]. cbn in E.
  injection E as -> E. apply (inert_head s r H _ E).
Qed.
Lemma replace_no_dollar : forall old new s r, (exists w, old = 36%N :: w) -> ~ In 36%N s ->
  py_replace (s ++ r) old new = s ++ py_replace r old new.
Proof.
  intros old new s r [w ->]. induction s as [|c s IH]; intro H; [reflexivity|]. cbn [app].
  rewrite replace_skip; [rewrite IH; [reflexivity|intro X; apply H; right; exact X]|discriminate|].
  cbn [prefixb]. destruct (N.eqb_spec 36 c) as [<-|]; [exfalso; apply H; left; reflexivity|reflexivity].
Qed.
Lemma no_dollar_inert : forall s, no_dollar s -> inert s.
Proof.
  intros s H. split; [intros a b E|intros a E]; apply H; rewrite E; apply in_or_app; right; left; reflexivity.
Qed.
Lemma replace_render : forall n0 d0 v ps, hole_ok n0 d0 -> Forall (piece_ok uword) ps ->
  py_replace (render ps) (variable (key n0 d0)) v = render (map (subst (key n0 d0) v) ps).
Proof.
  intros n0 d0 v ps H0. destruct (one_close n0 d0 H0) as (w & Ew & Cw & w' & Ew' & Dw').
  assert (NE : variable (key n0 d0) <> []) by (rewrite Ew, Ew'; discriminate).
  induction ps as [|p ps IH]; intro F; [apply replace_nil, NE|]. inversion F as [|x y Hp F']; subst x y. unfold render in *. cbn [map concat].
  destruct p as [s|n d].
  - cbn [source subst]. rewrite replace_inert; [rewrite IH by exact F'; reflexivity| |exact Hp]. exists (w' ++ [125%N]). rewrite Ew, Ew'. reflexivity.
  - cbn [subst]. rewrite source_key. destruct (text_eqb (variable (key n d)) (variable (key n0 d0))) eqn:E.
    + apply text_eqb_spec in E. rewrite E, replace_hit by exact NE. rewrite IH by exact F'. reflexivity.
    + apply text_eqb_neq in E. rewrite source_key. destruct (one_close n d Hp) as (u & Eu & Cu & u' & Eu' & Du').
      rewrite Eu, Eu'. cbn [app]. rewrite replace_skip; [|exact NE|].
      * change (123%N :: (u' ++ [125%N]) ++ concat (map source ps)) with ((123%N :: u' ++ [125%N]) ++ concat (map source ps)).
        rewrite replace_no_dollar; [rewrite IH by exact F'; reflexivity| |].
        -- exists (123%N :: w' ++ [125%N]). rewrite Ew, Ew'. reflexivity.
        -- intros [X|X]; [discriminate X|]. apply in_app_or in X. destruct X as [X|[X|[]]]; [apply Du', X|discriminate X].
      * destruct (prefixb _ _) eqn:P; [|reflexivity]. exfalso. apply prefixb_spec in P. destruct P as [x P].
        assert (K : u ++ 125%N :: concat (map source ps) = w ++ 125%N :: x).
        { rewrite Ew in P. transitivity ((w ++ [125%N]) ++ x); [|rewrite <- app_assoc; reflexivity]. rewrite <- P, Eu'. cbn [app]. rewrite <- ?app_assoc. reflexivity. }
        apply first_close_unique in K; [|exact Cu|exact Cw]. apply E. rewrite Eu, Ew, K. reflexivity.
Qed.

(** The text a placeholder stands for: the variable's value, or the default. *)
Definition denotes (n : text) (d : option text) (v : text) : Prop :=
  match get_value (lower n) with
  | Some x => v = format A str x
  | None => let d := match d with Some d => d | None => [] end in
            match call_default d with Some r => v = r | None => v = d end
  end.
Definition expands (p : piece) (v : text) : Prop := match p with Lit s => v = s | Hole n d => denotes n d v /\ no_dollar v end.

Lemma key_inj : forall n d n' d', hole_ok n d -> hole_ok n' d' -> variable (key n d) = variable (key n' d') -> key n d = key n' d'.
Proof.
  intros n d n' d' [[N1 F] H] [[N1' F'] H'] E.
  assert (M : match_var uword (n ++ snd (key n d) ++ 125%N :: []) = match_var uword (n' ++ snd (key n' d') ++ 125%N :: [])).
  { unfold variable in E. cbn [fst snd key] in E. cbn in E. injection E as E. cbn [snd key]. rewrite E. reflexivity. }
  rewrite !match_hole in M by (split; [split|]; assumption). unfold key in *. cbn [snd] in *. congruence.
Qed.
Lemma value_denotes : forall n d v, denotes n d v <-> v = value_of (key n d).
Proof.
  intros n d v. unfold denotes, Interp_Model.value_of. cbn [fst snd key]. destruct (get_value (lower n)); [tauto|].
  destruct d as [d|]; cbn [tl]; destruct (call_default _); tauto.
Qed.

Lemma expand_all : forall ks ps,
  Forall (piece_ok uword) ps -> Forall (fun k => exists n d, k = key n d /\ hole_ok n d /\ no_dollar (value_of k)) ks ->
  (forall n d, In (Hole n d) ps -> In (key n d) ks) ->
  fold_left (fun sql x => py_replace sql (variable x) (value_of x)) ks (render ps) =
  concat (map (fun p => match p with Lit s => s | Hole n d => value_of (key n d) end) ps).
Proof.
  induction ks as [|k ks IH]; intros ps F K C; cbn [fold_left].
  - unfold render. f_equal. apply map_ext_in. intros [s|n d] I; [reflexivity|]. destruct (C n d I).
  - inversion K as [|x y Hk K']; subst. destruct Hk as (n0 & d0 & -> & H0 & D0). rewrite replace_render by assumption. rewrite IH.
    + rewrite map_map. f_equal. apply map_ext_in. intros [s|n d] I; [reflexivity|]. cbn [subst].
      destruct (text_eqb _ _) eqn:E; [|reflexivity]. apply text_eqb_spec in E. rewrite Forall_forall in F.
      rewrite (key_inj n d n0 d0 (F _ I) H0 E). reflexivity.
    + rewrite Forall_forall in *. intros p I. apply in_map_iff in I. destruct I as (q & <- & I). specialize (F q I).
      destruct q as [s|n d]; [exact F|]. cbn [subst]. destruct (text_eqb _ _); [|exact F]. apply no_dollar_inert, D0.
    + exact K'.
    + intros n d I. apply in_map_iff in I. destruct I as (q & Eq & I). destruct q as [s|n' d']; [discriminate Eq|]. cbn [subst] in Eq.
      destruct (text_eqb _ _) eqn:E; [discriminate Eq|]. injection Eq as -> ->. destruct (C n d I) as [X|X]; [|exact X].
      exfalso. apply text_eqb_neq in E. apply E. rewrite X. reflexivity.
Qed.

(** Every placeholder is replaced by what it denotes, and nothing else changes, provided the surrounding text starts no
    other placeholder and the inserted texts contain no '$'. *)
Theorem interpolation : forall ps vs, Forall (piece_ok uword) ps -> Forall2 expands ps vs ->
  compile (render ps) = concat vs.
Proof.
  intros ps vs F E. unfold compile_variable. rewrite find_all_render by (try exact F; lia). rewrite expand_all; [|exact F| |].
  - f_equal. clear F. induction E as [|p v ps vs Ep E IH]; [reflexivity|]. cbn [map]. f_equal; [|exact IH].
    destruct p as [s|n d]; cbn in Ep; [congruence|]. destruct Ep as [Ep _]. apply value_denotes in Ep. congruence.
  - rewrite Forall_forall. intros k I. unfold keys in I. apply in_concat in I. destruct I as (l & I & Ik). apply in_map_iff in I.
    destruct I as (p & <- & I). destruct p as [s|n d]; [destruct Ik|]. destruct Ik as [<-|[]]. exists n, d. split; [reflexivity|].
    rewrite Forall_forall in F. split; [apply (F _ I)|].
    assert (G : exists v, expands (Hole n d) v).
    { clear - E I. induction E as [|p v ps vs Ep E IH]; [destruct I|]. destruct I as [->|I]; [exists v; exact Ep|apply IH, I]. }
    destruct G as (v & G1 & G2). apply value_denotes in G1. rewrite <- G1. exact G2.
  - intros n d I. unfold keys. apply in_concat. exists [key n d]. split; [|left; reflexivity]. apply in_map_iff. exists (Hole n d). auto.
Qed.

(** Text without "${" is left alone. *)
Theorem no_placeholder_unchanged : forall s, (forall a b, s <> a ++ t "${" ++ b) -> compile s = s.
Proof.
  intros s H. unfold compile_variable.
  assert (G : forall f s, (forall a b, s <> a ++ t "${" ++ b) -> find_all uword f s = []).
  { clear. induction f as [|f IH]; intros s H; [reflexivity|]. destruct s as [|c r]; [reflexivity|]. rewrite find_all_step.
    - apply IH. intros a b E. apply (H (c :: a) b). rewrite E. reflexivity.
    - intros -> x ->. apply (H [] x). reflexivity. }
  rewrite (G _ s H). reflexivity.
Qed.

(** Rendering of values. *)
Theorem format_values : format A str ENull = t "null" /\ format A str (EBool true) = t "true" /\ format A str (EBool false) = t "false" /\
  (forall v, format A str (Other v) = str v) /\
  format A str (ESeq []) = t "()" /\
  (forall l, l <> [] -> exists b, commas (map (format A str) l) b /\ format A str (ESeq l) = t "(" ++ b ++ t ")").
Proof.
  repeat split. intros l H. exists (join (t ",") (map (format A str) l)). split; [|reflexivity].
  induction l as [|x [|y l] IH]; [contradiction|constructor|]. cbn [map]. rewrite join_cons by discriminate. constructor. apply IH. discriminate.
Qed.
End Props.

(** Concrete texts: select ${@a} from t where d > '${day:2020-01-01}' and x = ${@a} *)
Definition exps : list piece :=
  [Lit (t "select "); Hole (t "@a") None; Lit (t " from t where d > '"); Hole (t "day") (Some (t "2020-01-01")); Lit (t "' and x = "); Hole (t "@a") None].
Definition exenv (k : text) : option (envval text) := if text_eqb k (t "@a") then Some (ESeq [Other (t "1"); ENull]) else None.
Definition exvals : list text := [t "select "; t "(1,null)"; t " from t where d > '"; t "2020-01-01"; t "' and x = "; t "(1,null)"].
Definition nodecide (s : text) (c : N) : ~ In c s <-> existsb (N.eqb c) s = false.
Proof.
  split; intro H.
  - destruct (existsb (N.eqb c) s) eqn:E; [|reflexivity]. exfalso. apply existsb_exists in E. destruct E as (x & I & E). apply N.eqb_eq in E. subst. apply H, I.
  - intro I. assert (existsb (N.eqb c) s = true) as K by (apply existsb_exists; exists c; split; [exact I|apply N.eqb_refl]). congruence.
Qed.
Lemma name_ok_b : forall u n, n <> [] -> forallb (Interp_Model.word u) n = true -> name_ok u n.
Proof. intros u n H F. split; [exact H|]. rewrite forallb_forall in F. apply Forall_forall. intros c I. apply word_spec, F, I. Qed.
Example ex_pieces : Forall (piece_ok (fun _ => false)) exps /\ Forall2 (expands text (fun v => v) (fun s => s) (fun _ => None) exenv) exps exvals.
Proof.
  split.
  - unfold exps. repeat apply Forall_cons; try apply Forall_nil; cbn [piece_ok];
      try (apply no_dollar_inert, nodecide; reflexivity);
      (split; [apply name_ok_b; [discriminate|reflexivity]|]); try exact I; split; apply nodecide; reflexivity.
  - repeat constructor; apply nodecide; reflexivity.
Qed.
Example ex_interpolated : compile_variable text (fun v => v) (fun s => s) (fun _ => false) (fun _ => None) exenv (render exps) = concat exvals.
Proof. apply interpolation; apply ex_pieces. Qed.

(** The values inserted are themselves scanned for the remaining placeholders: a value containing a placeholder text
    that also occurs later in the statement is changed. *)
Theorem interpolation_nested_refuted : exists env ps vs, Forall (piece_ok (fun _ => false)) ps /\
  Forall2 (fun p v => match p with Lit s => v = s | Hole n d => denotes text (fun v => v) (fun s => s) (fun _ => None) env n d v end) ps vs /\
  compile_variable text (fun v => v) (fun s => s) (fun _ => false) (fun _ => None) env (render ps) <> concat vs.
Proof.
  exists (fun k => if text_eqb k (t "a") then Some (Other (t "${b}")) else if text_eqb k (t "b") then Some (Other (t "1")) else None).
  exists [Hole (t "a") None; Hole (t "b") None], [t "${b}"; t "1"].
  split; [repeat apply Forall_cons; try apply Forall_nil; (split; [apply name_ok_b; [discriminate|reflexivity]|exact I])|]. split; [repeat constructor|]. discriminate.
Qed.
(** Names are lowered before the look-up, variables are stored as written: a variable whose name has an upper case letter is
    never found by its placeholder. *)
Theorem interpolation_case_refuted : exists env n, env n = Some (Other (t "1")) /\ name_ok (fun _ => false) n /\
  compile_variable text (fun v => v) (map (fun c => if ((65 <=? c) && (c <=? 90))%N then (c + 32)%N else c)) (fun _ => false) (fun _ => None) env
    (render [Hole n None]) = [].
Proof.
  exists (fun k => if text_eqb k (t "@Day") then Some (Other (t "1")) else None), (t "@Day").
  split; [reflexivity|]. split; [|reflexivity]. apply name_ok_b; [discriminate|reflexivity].
Qed.
(** A default ends at the first '}', so a default cannot contain one. *)
Theorem default_with_brace_refuted : exists n d, name_ok (fun _ => false) n /\
  compile_variable text (fun v => v) (fun s => s) (fun _ => false) (fun _ => None) (fun _ => None) (render [Hole n (Some d)]) <> d.
Proof. exists (t "a"), (t "{}x"). split; [apply name_ok_b; [discriminate|reflexivity]|]. discriminate. Qed.

Print Assumptions interpolation.
Print Assumptions no_placeholder_unchanged.
Print Assumptions format_values.
Print Assumptions interpolation_nested_refuted.
Print Assumptions interpolation_case_refuted.
Print Assumptions default_with_brace_refuted.

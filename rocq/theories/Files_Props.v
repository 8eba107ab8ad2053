(** C55: files as tables. *)
From Coq Require Import Lia.
From Verif Require Import Base Insert_Model Insert_Props Files_Model.

Lemma same_name_spec a b : same_name a b = true <-> a = b.
Proof.
  destruct a as [x|x i], b as [y|y j]; cbn [same_name].
  - rewrite text_eqb_spec. split; [intros ->; reflexivity|intros [=]; assumption].
  - split; discriminate.
  - split; discriminate.
  - rewrite Bool.andb_true_iff, text_eqb_spec, Nat.eqb_eq. split; [intros [-> ->]; reflexivity|intros [=]; auto].
Qed.
Lemma same_name_refl a : same_name a a = true. Proof. apply same_name_spec. reflexivity. Qed.

(** The format of a file name: its extension. *)
Theorem extension_of_name : forall stem ext, (exists c, In c stem /\ c <> 46%N) -> ~ In 46%N ext ->
  extension (stem ++ [46%N] ++ ext) = [46%N] ++ ext.
Proof.
  intros stem ext (c & Ic & Nc) H. unfold extension.
  assert (R : rindex_of 46 (stem ++ [46%N] ++ ext) = Some (length stem)).
  { unfold rindex_of. rewrite rev_app_distr, rev_app_distr. cbn [rev app]. rewrite <- app_assoc. cbn [app].
    rewrite index_first by (rewrite <- in_rev; exact H). rewrite rev_length, !app_length. cbn [length]. f_equal. lia. }
  rewrite R, firstn_app, firstn_all, Nat.sub_diag, app_nil_r.
  assert (forallb (fun c => N.eqb c 46) stem = false) as ->.
  { apply Bool.not_true_is_false. intros F. rewrite forallb_forall in F. apply F in Ic. apply N.eqb_eq in Ic. contradiction. }
  rewrite skipn_app, skipn_all, Nat.sub_diag. reflexivity.
Qed.
Print Assumptions extension_of_name.
Theorem driver_of_name : forall stem dir url params fmt, (exists c, In c stem /\ c <> 46%N) ->
  driver_of (mkref dir (stem ++ t ".csv") url params fmt) = Some (t "csv") /\
  driver_of (mkref dir (stem ++ t ".json") url params fmt) = Some (t "json") /\
  driver_of (mkref dir (stem ++ t ".txt") url params fmt) = Some (t "textline") /\
  driver_of (mkref dir (stem ++ t ".xls") url params fmt) = Some (t "execl") /\
  driver_of (mkref dir (stem ++ t ".xlsx") url params fmt) = Some (t "execl").
Proof.
  intros stem dir url params fmt H.
  assert (E : forall e, ~ In 46%N e -> extension (stem ++ 46%N :: e) = 46%N :: e) by (intros e; apply (extension_of_name stem e H)).
  repeat split; unfold driver_of; cbn [f_file f_url]; cbv zeta.
  - change (t ".csv") with (46%N :: t "csv"). rewrite E by (cbn; intuition discriminate). reflexivity.
  - change (t ".json") with (46%N :: t "json"). rewrite E by (cbn; intuition discriminate). reflexivity.
  - change (t ".txt") with (46%N :: t "txt"). rewrite E by (cbn; intuition discriminate). reflexivity.
  - change (t ".xls") with (46%N :: t "xls"). rewrite E by (cbn; intuition discriminate). reflexivity.
  - change (t ".xlsx") with (46%N :: t "xlsx"). rewrite E by (cbn; intuition discriminate). reflexivity.
Qed.
Print Assumptions driver_of_name.

Section Files.
Variable alnum : N -> bool.
Notation mangle := (mangle alnum).
Notation resolve := (resolve alnum).
Notation resolve_all := (resolve_all alnum).

Definition well (l : list database) : Prop := forall d, In d l -> d_name d = Dir (mangle (d_path d)).
Lemma set_format_name dr f d : d_name (set_format dr f d) = d_name d.
Proof. destruct f; cbn [set_format]; [destruct (text_eqb _ _)|]; reflexivity. Qed.
Lemma set_format_driver dr f d : d_driver (set_format dr f d) = d_driver d.
Proof. destruct f; cbn [set_format]; [destruct (text_eqb _ _)|]; reflexivity. Qed.
Lemma set_format_path dr f d : d_path (set_format dr f d) = d_path d.
Proof. destruct f; cbn [set_format]; [destruct (text_eqb _ _)|]; reflexivity. Qed.
(** Driver and directory of the database a name stands for. *)
Definition reads (l : list database) (m : db_name) : option (text * text) :=
  option_map (fun d => (d_driver d, d_path d)) (lookup l m).

Lemma place_spec driver path fmt : forall l, well l ->
  well (fst (place (Dir (mangle path)) driver path [] fmt l)) /\
  snd (place (Dir (mangle path)) driver path [] fmt l) = Dir (mangle path) /\
  forall m, reads (fst (place (Dir (mangle path)) driver path [] fmt l)) m =
            if same_name (Dir (mangle path)) m then Some (driver, path) else reads l m.
Proof.
  induction l as [|d l IH]; intros W; cbn [place].
  - cbn [fst snd]. repeat split.
    + intros d [<-|[]]. rewrite set_format_name, set_format_path. reflexivity.
    + intros m. unfold reads, lookup. cbn [find]. rewrite set_format_name. cbn [d_name].
      destruct (same_name (Dir (mangle path)) m); [|reflexivity]. cbn [option_map]. rewrite set_format_driver, set_format_path. reflexivity.
  - assert (Wd : d_name d = Dir (mangle (d_path d))) by (apply W; left; reflexivity).
    assert (Wl : well l) by (intros x I; apply W; right; exact I).
    destruct (same_name (d_name d) (Dir (mangle path))) eqn:E.
    + cbn [fst snd]. apply same_name_spec in E. repeat split.
      * intros x [<-|I]; [|apply Wl, I]. rewrite set_format_name, set_format_path. reflexivity.
      * intros m. unfold reads, lookup. cbn [find]. rewrite set_format_name, E. cbn [d_name].
        destruct (same_name (Dir (mangle path)) m); [|reflexivity]. cbn [option_map]. rewrite set_format_driver, set_format_path. reflexivity.
    + destruct (text_eqb (d_driver d) driver && text_eqb (d_path d) path && true) eqn:F.
      { apply Bool.andb_true_iff in F. destruct F as [F _]. apply Bool.andb_true_iff in F. destruct F as [_ F].
        apply text_eqb_spec in F. rewrite Wd, F, same_name_refl in E. discriminate. }
      specialize (IH Wl). destruct (place (Dir (mangle path)) driver path [] fmt l) as [l' n]. cbn [fst snd] in *.
      destruct IH as (I1 & I2 & I3). repeat split; auto.
      * intros x [<-|I]; [exact Wd|apply I1, I].
      * intros m. unfold reads, lookup in *. cbn [find]. destruct (same_name (d_name d) m) eqn:G; [|apply I3].
        destruct (same_name (Dir (mangle path)) m) eqn:K; [|reflexivity]. apply same_name_spec in G, K. subst m. rewrite <- K, same_name_refl in E. discriminate.
Qed.

(** The last reference to a file in a directory with this mangled name. *)
Definition last_ref (rs : list file_ref) (m : text) : option file_ref :=
  find (fun r => text_eqb (mangle (f_dir r)) m) (rev rs).
Lemma find_app A (p : A -> bool) a b : find p (a ++ b) = match find p a with Some z => Some z | None => find p b end.
Proof. induction a as [|z a IH]; [reflexivity|]. cbn [app find]. destruct (p z); [reflexivity|exact IH]. Qed.

Lemma resolve_all_spec : forall rs n l, well l ->
  (forall r, In r rs -> f_params r = [] /\ exists d, driver_of r = Some d) ->
  snd (resolve_all n l rs) = map (fun r => Some (Dir (mangle (f_dir r)))) rs /\
  forall m, reads (fst (resolve_all n l rs)) (Dir m) =
    match last_ref rs m with
    | Some r => option_map (fun d => (d, f_dir r)) (driver_of r)
    | None => reads l (Dir m)
    end.
Proof.
  induction rs as [|r rs IH]; intros n l W H; cbn [Files_Model.resolve_all]; [split; reflexivity|].
  destruct (H r (or_introl eq_refl)) as [Hp [d Hd]].
  unfold Files_Model.resolve. rewrite Hd, Hp. cbv zeta.
  pose proof (place_spec d (f_dir r) (f_format r) l W) as P.
  destruct (place (Dir (mangle (f_dir r))) d (f_dir r) [] (f_format r) l) as [l1 m1]. cbn [fst snd] in P. destruct P as (P1 & P2 & P3).
  specialize (IH (S n) l1 P1 (fun x I => H x (or_intror I))).
  destruct (resolve_all (S n) l1 rs) as [l2 ms]. cbn [fst snd map] in *. destruct IH as [I1 I2]. split; [congruence|].
  intros m. rewrite I2. unfold last_ref. cbn [rev]. rewrite find_app. cbn [find].
  destruct (find (fun r0 => text_eqb (mangle (f_dir r0)) m) (rev rs)); [reflexivity|].
  rewrite P3. cbn [same_name]. destruct (text_eqb (mangle (f_dir r)) m); [rewrite Hd|]; reflexivity.
Qed.
End Files.

(** When the statement runs, a file is read with the driver of the last file of the statement in a directory with the same mangled
    name, and from the directory of that file. *)
Theorem file_last_wins : forall alnum rs,
  (forall r, In r rs -> f_params r = [] /\ exists d, driver_of r = Some d) ->
  let (dbs, names) := resolve_all alnum 0 [] rs in
  forall i r, nth_error rs i = Some r -> exists name last d, nth_error names i = Some (Some name) /\
    last_ref alnum rs (mangle alnum (f_dir r)) = Some last /\
    mangle alnum (f_dir last) = mangle alnum (f_dir r) /\ driver_of last = Some d /\ reads dbs name = Some (d, f_dir last).
Proof.
  intros alnum rs H. pose proof (resolve_all_spec alnum rs 0 [] (fun d I => match I with end) H) as [S R].
  destruct (resolve_all alnum 0 [] rs) as [dbs names]. cbn [fst snd] in *. intros i r Hi.
  destruct (last_ref alnum rs (mangle alnum (f_dir r))) as [last|] eqn:L.
  - unfold last_ref in L. apply find_some in L as L'. destruct L' as [I E]. apply text_eqb_spec in E. apply in_rev in I.
    destruct (H last I) as [_ [d Hd]]. exists (Dir (mangle alnum (f_dir r))), last, d. split; [|split; [reflexivity|split; [exact E|split; [exact Hd|]]]].
    + subst names. rewrite nth_error_map, Hi. reflexivity.
    + rewrite R. unfold last_ref. rewrite L, Hd. reflexivity.
  - exfalso. unfold last_ref in L. pose proof (find_none _ _ L r) as N. cbn beta in N.
    rewrite text_eqb_refl in N. assert (true = false); [|discriminate]. apply N. rewrite <- in_rev. eapply nth_error_In, Hi.
Qed.
Print Assumptions file_last_wins.

(** So all files of a statement are read correctly iff files in directories with the same mangled name are in the same directory and of
    the same format. *)
Theorem files_correct_iff : forall alnum rs,
  (forall r, In r rs -> f_params r = [] /\ exists d, driver_of r = Some d) ->
  let (dbs, names) := resolve_all alnum 0 [] rs in
  (forall i r, nth_error rs i = Some r -> exists name d, nth_error names i = Some (Some name) /\ driver_of r = Some d /\
                                                       reads dbs name = Some (d, f_dir r)) <->
  (forall r r', In r rs -> In r' rs -> mangle alnum (f_dir r) = mangle alnum (f_dir r') ->
                f_dir r = f_dir r' /\ driver_of r = driver_of r').
Proof.
  intros alnum rs H. pose proof (file_last_wins alnum rs H) as L.
  destruct (resolve_all alnum 0 [] rs) as [dbs names]. split.
  - intros C r r' I I' E.
    assert (K : forall x, In x rs -> exists last d, last_ref alnum rs (mangle alnum (f_dir x)) = Some last /\
                f_dir last = f_dir x /\ driver_of last = Some d /\ driver_of x = Some d).
    { intros x Ix. apply In_nth_error in Ix. destruct Ix as [i Hi]. destruct (C i x Hi) as (name & d & N1 & D1 & R1).
      destruct (L i x Hi) as (name' & last & d' & N2 & La & M & D2 & R2). rewrite N1 in N2. injection N2 as <-.
      rewrite R1 in R2. injection R2 as <- E2. exists last, d. auto. }
    destruct (K r I) as (l1 & d1 & A1 & A2 & A3 & A4). destruct (K r' I') as (l2 & d2 & B1 & B2 & B3 & B4).
    rewrite E in A1. rewrite A1 in B1. injection B1 as <-. split; congruence.
  - intros C i r Hi. destruct (L i r Hi) as (name & last & d & N1 & La & M & D & R).
    assert (Il : In last rs) by (unfold last_ref in La; apply find_some in La; destruct La as [La _]; rewrite <- in_rev in La; exact La).
    destruct (C last r Il (nth_error_In _ _ Hi) M) as [E1 E2]. exists name, d. split; [exact N1|]. split; [congruence|]. rewrite <- E1. exact R.
Qed.
Print Assumptions files_correct_iff.

(* ---- cases ---- *)
Definition letters (c : N) : bool := (N.leb 97 c && N.leb c 122) || (N.leb 48 c && N.leb c 57).
Definition path dir file : file_ref := mkref (t dir) (t file) false [] None.
Example files_case :
  let rs := [path "/data" "a.csv"; path "/data" "b.csv"; path "/tmp" "c.json"] in
  (forall r, In r rs -> f_params r = [] /\ exists d, driver_of r = Some d) /\
  (forall r r', In r rs -> In r' rs -> mangle letters (f_dir r) = mangle letters (f_dir r') -> f_dir r = f_dir r' /\ driver_of r = driver_of r').
Proof.
  cbv zeta. split.
  - intros r [<-|[<-|[<-|[]]]]; split; try reflexivity; eexists; reflexivity.
  - intros r r' [<-|[<-|[<-|[]]]] [<-|[<-|[<-|[]]]] E; try (split; reflexivity); discriminate E.
Qed.
(** SELECT ... FROM `/data/a.csv` JOIN `/data/b.json`, or INSERT INTO `/data/a.csv` SELECT ... FROM `/data/b.json`: both files are JSON. *)
Theorem file_formats_refuted :
  let (dbs, names) := resolve_all letters 0 [] [path "/data" "a.csv"; path "/data" "b.json"] in
  exists name, names = [Some name; Some name] /\ reads dbs name = Some (t "json", t "/data").
Proof. eexists. split; reflexivity. Qed.
Print Assumptions file_formats_refuted.
(** Files in /data/x and /data_x: both are looked for in /data_x. *)
Theorem file_directories_refuted :
  let (dbs, names) := resolve_all letters 0 [] [path "/data/x" "a.csv"; path "/data_x" "b.csv"] in
  exists name, names = [Some name; Some name] /\ reads dbs name = Some (t "csv", t "/data_x").
Proof. eexists. split; reflexivity. Qed.
Print Assumptions file_directories_refuted.
(** The parameters of a file:// URL and the format of a .txt file also apply to later files in the same directory. *)
Theorem file_options_refuted :
  (let (dbs, names) := resolve_all letters 0 [] [mkref (t "/d") (t "a.csv") true [(t "sep", t ";")] None; path "/d" "b.csv"] in
   exists name d, nth_error names 1 = Some (Some name) /\ lookup dbs name = Some d /\ d_params d = [(t "sep", t ";")]) /\
  (let (dbs, names) := resolve_all letters 0 [] [mkref (t "/d") (t "a.txt") false [] (Some (t "json")); path "/d" "b.txt"] in
   exists name d, nth_error names 1 = Some (Some name) /\ lookup dbs name = Some d /\ d_format d = Some (t "json")).
Proof. split; eexists; eexists; repeat split. Qed.
Print Assumptions file_options_refuted.

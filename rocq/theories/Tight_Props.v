(** Further theorems for properties of other areas, added after mutants of the model had survived. *)
From Coq Require Import Lia.
From Verif Require Import Base PyVal Utils_Model Utils_Spec Dec_Proofs Calc_Model Calc_Proofs Str_Model Str_Spec Regexp_Model Regexp_Props Expr_Syntax Expr_Model Expr_Spec Expr_Proofs Expr_Props Having_Model Having_Spec Having_Proofs Having_Props
  Fmt_Spec Fmt_Proofs Files_Model Files_Props Exec_Model Cli_Model Stmt_Proofs.
Open Scope nat_scope.

(** LIKE '%%' holds for every text, in an expression and in HAVING. *)
Theorem like_all : forall ci s, sql2 (mysql_like ci) (VStr s) (VStr (t "%%")) = VInt 1 /\ like ci (t "%%") s.
Proof.
  intros ci s. split; [destruct s; reflexivity|]. rewrite <- (app_nil_r s). apply (like_percent ci (t "%") s []). apply (like_percent ci [] [] []). constructor.
Qed.
Theorem having_like_all : forall frepr ident ext lib tt, ext (t "neg") = None ->
  forall schema other rematch, matches_plain rematch -> forall e, exact e -> known_columns schema e ->
  exists h, having frepr ident ext schema other (EBin (t "like") e (EConst (VStr (t "%%")))) = Ok h /\
  forall row s, sem tt (sql_fn frepr ident ext lib) row e = VStr s -> keeps frepr ident ext lib rematch h row = true.
Proof.
  intros fr id ext lib tt N schema other rm MP e X K. cbn [having]. change (text_eqb (t "like") (t "like")) with true. cbv iota.
  rewrite operand_ok by exact K. unfold operand at 1. cbn [columns forallb bind compile]. eexists. split; [reflexivity|]. intros row s Hs. unfold keeps. cbn [hev].
  rewrite (compiled_value fr id ext lib tt N e X row), Hs. change (having_pattern (t "%%")) with (render [Any]). rewrite (MP [Any] s) by (repeat constructor). destruct s; reflexivity.
Qed.
Print Assumptions like_all.
Print Assumptions having_like_all.

(** A date, time or datetime taken as a number is made of the digits of its text. *)
Definition digits_in (s : text) : text := filter is_digit_ascii s.
Lemma digits_in_app : forall a b, digits_in (a ++ b) = digits_in a ++ digits_in b. Proof. intros. apply filter_app. Qed.
Lemma digits_in_digits : forall a, Forall Utils_Spec.digit a -> digits_in a = a.
Proof. intros a H. induction H as [|c a Hc H IH]; [reflexivity|]. unfold digits_in in *. cbn [filter]. assert (is_digit_ascii c = true) as -> by (unfold is_digit_ascii, Utils_Spec.digit in *; apply andb_true_intro; split; apply N.leb_le; lia). f_equal. exact IH. Qed.
Lemma decval_2 : forall p z, (0 <= z < 100)%Z -> digits_in (pad 2 z) = pad 2 z /\ decval (p ++ pad 2 z) = (decval p * 100 + z)%Z.
Proof.
  intros p z H. destruct (pad_shows 2 z ltac:(lia) ltac:(cbn; lia)) as (L & D & V). split; [apply digits_in_digits, D|].
  destruct (pad 2 z) as [|c [|d [|e s]]]; try discriminate L. change (p ++ [c; d]) with (p ++ [c] ++ [d]). rewrite app_assoc, !decval_snoc.
  change [c; d] with (([] ++ [c]) ++ [d]) in V. rewrite !decval_snoc in V. change (decval []) with 0%Z in V. lia.
Qed.
Open Scope Z_scope.
Theorem dates_as_numbers : forall y m d h mi s us, 0 < y -> 0 <= m < 100 -> 0 <= d < 100 -> 0 <= h < 100 -> 0 <= mi < 100 -> 0 <= s < 100 ->
  ensure_int (VDate y m d) = Ok (VInt (decval (digits_in (date_text y m d)))) /\
  ensure_int (VTime h mi s us) = Ok (VInt (decval (digits_in (time_text h mi s)))) /\
  ensure_int (VDatetime y m d h mi s us) = Ok (VInt (decval (digits_in (date_text y m d ++ t " " ++ time_text h mi s)))).
Proof.
  intros y m d h mi s us Hy Hm Hd Hh Hmi Hs.
  assert (Y : digits_in (str_of_Z y) = str_of_Z y /\ decval (str_of_Z y) = y).
  { assert (str_of_Z y = str_of_nonneg y) as -> by (unfold str_of_Z; destruct (Z.ltb_spec y 0); [lia|reflexivity]). destruct (str_of_nonneg_spec y ltac:(lia)) as [[_ D] V]. split; [apply digits_in_digits, D|exact V]. }
  destruct Y as [Y1 Y2].
  assert (D : forall p, digits_in (p ++ date_text y m d) = digits_in p ++ str_of_Z y ++ pad 2 m ++ pad 2 d).
  { intro p. unfold date_text. rewrite !digits_in_app, Y1, (proj1 (decval_2 [] m Hm)), (proj1 (decval_2 [] d Hd)). reflexivity. }
  assert (Ti : digits_in (time_text h mi s) = pad 2 h ++ pad 2 mi ++ pad 2 s).
  { unfold time_text. rewrite !digits_in_app, (proj1 (decval_2 [] h Hh)), (proj1 (decval_2 [] mi Hmi)), (proj1 (decval_2 [] s Hs)). reflexivity. }
  assert (Dv : forall p, decval ((p ++ pad 2 m) ++ pad 2 d) = decval p * 10000 + m * 100 + d) by (intro p; rewrite (proj2 (decval_2 _ d Hd)), (proj2 (decval_2 _ m Hm)); lia).
  assert (Tv : forall p, decval (((p ++ pad 2 h) ++ pad 2 mi) ++ pad 2 s) = decval p * 1000000 + h * 10000 + mi * 100 + s).
  { intro p. rewrite (proj2 (decval_2 _ s Hs)), (proj2 (decval_2 _ mi Hmi)), (proj2 (decval_2 _ h Hh)). lia. }
  split; [|split].
  - change (date_text y m d) with ([] ++ date_text y m d). rewrite D. cbn [digits_in filter app]. rewrite !app_assoc, Dv, Y2. reflexivity.
  - rewrite Ti, !app_assoc. change (pad 2 h) with ([] ++ pad 2 h). rewrite Tv. change (decval []) with 0. unfold ensure_int. cbn [truthy negb]. unfold time_int. reflexivity.
  - change (date_text y m d) with ([] ++ date_text y m d). rewrite digits_in_app, D, digits_in_app, Ti. cbn [digits_in filter app]. 
    change (if is_digit_ascii 32 then [32%N] else []) with (@nil N). cbn [app]. rewrite !app_assoc; cbn [app]; rewrite Tv; change (digits_in (t " ")) with (@nil N); rewrite app_nil_r, Dv, Y2. unfold ensure_int. cbn [truthy negb]. unfold date_int, time_int. f_equal. f_equal. lia.
Qed.
Print Assumptions dates_as_numbers.
Example dates_as_numbers_met : ensure_int (VDatetime 2024 3 5 14 7 9 42) = Ok (VInt 20240305140709). Proof. reflexivity. Qed.

(** FIELD(NULL, ...) is NULL, where MySQL has 0. *)
Theorem field_null_refuted : forall vs, sqln mysql_field (VNone :: vs) = VNone. Proof. reflexivity. Qed.

(** CASE e WHEN ... with branches that are not constants, without ELSE, gives 0, not NULL. *)
Theorem case_expression_without_else_refuted :
  let e := ECase (Some (ECol (t "b"))) [(EBin (t "add") (EConst (VInt 6)) (EConst (VInt 1)), EConst (VInt 1))] None in val0 e = VInt 0 /\ sql0 e = VNone.
Proof. split; reflexivity. Qed.

(** A URL without a known extension is read as lines of text; a file name without one is no file. *)
Theorem driver_of_url : forall dir stem e params fmt, (exists c, In c stem /\ c <> 46%N) -> ~ In 46%N e -> ~ In e [t "csv"; t "json"; t "txt"; t "xls"; t "xlsx"] ->
  driver_of (mkref dir (stem ++ [46%N] ++ e) true params fmt) = Some (t "textline") /\ driver_of (mkref dir (stem ++ [46%N] ++ e) false params fmt) = None.
Proof.
  intros dir stem e params fmt Hs He Hn. unfold driver_of. cbn [f_file f_url]. rewrite (extension_of_name stem e Hs He). cbv zeta.
  assert (K : forall x, ~ In x [t "csv"; t "json"; t "txt"; t "xls"; t "xlsx"] \/ text_eqb ([46%N] ++ e) ([46%N] ++ x) = false).
  { intro x. destruct (text_eqb ([46%N] ++ e) ([46%N] ++ x)) eqn:E; [|right; reflexivity]. left. apply text_eqb_spec in E. apply app_inv_head in E. subst x. exact Hn. }
  assert (K1 : forall x, In x [t "csv"; t "json"; t "txt"; t "xls"; t "xlsx"] -> text_eqb ([46%N] ++ e) ([46%N] ++ x) = false) by (intros x I; destruct (K x); [contradiction|assumption]).
  change (t ".txt") with ([46%N] ++ t "txt"). change (t ".json") with ([46%N] ++ t "json"). change (t ".csv") with ([46%N] ++ t "csv"). change (t ".xls") with ([46%N] ++ t "xls"). change (t ".xlsx") with ([46%N] ++ t "xlsx").
  rewrite !K1 by (cbn [In]; tauto). split; reflexivity.
Qed.
Print Assumptions driver_of_url.
Example driver_of_url_met : (exists c, In c (t "v1.data") /\ c <> 46%N) /\ ~ In 46%N (t "log") /\ ~ In (t "log") [t "csv"; t "json"; t "txt"; t "xls"; t "xlsx"].
Proof. split; [exists 118%N; split; [left; reflexivity|discriminate]|]. split; [intro H; repeat destruct H as [H|H]; discriminate H || contradiction|intro H; repeat destruct H as [H|H]; discriminate H || contradiction]. Qed.

(** The letters m, n and u of a match type set their flags, wherever they stand. *)
Theorem flags_letters : forall l, f_m (parse_flags l) = existsb (N.eqb 109) l /\ f_s (parse_flags l) = existsb (N.eqb 110) l /\ f_u (parse_flags l) = existsb (N.eqb 117) l.
Proof.
  assert (G : forall l f, f_m (flags_loop l f) = f_m f || existsb (N.eqb 109) l /\ f_s (flags_loop l f) = f_s f || existsb (N.eqb 110) l /\ f_u (flags_loop l f) = f_u f || existsb (N.eqb 117) l).
  { induction l as [|c l IH]; intro f; cbn [flags_loop existsb]; [rewrite !orb_false_r; auto|].
    destruct (IH (if (c =? 99)%N then mkflags false (f_m f) (f_s f) (f_u f) else if (c =? 105)%N then mkflags true (f_m f) (f_s f) (f_u f)
       else if (c =? 109)%N then mkflags (f_i f) true (f_s f) (f_u f) else if (c =? 110)%N then mkflags (f_i f) (f_m f) true (f_u f)
       else if (c =? 117)%N then mkflags (f_i f) (f_m f) (f_s f) true else f)) as (A & B & C). rewrite A, B, C. rewrite !(N.eqb_sym 109 c), !(N.eqb_sym 110 c), !(N.eqb_sym 117 c).
    destruct (N.eqb_spec c 99) as [->|]; [auto|]. destruct (N.eqb_spec c 105) as [->|]; [auto|]. destruct (N.eqb_spec c 109) as [->|]; [cbn; rewrite !orb_true_r; auto|].
    destruct (N.eqb_spec c 110) as [->|]; [cbn; rewrite !orb_true_r; auto|]. destruct (N.eqb_spec c 117) as [->|]; [cbn; rewrite !orb_true_r; auto|]. auto. }
  intro l. exact (G l (mkflags true false false false)).
Qed.
Print Assumptions flags_letters.

(** A script on standard input that is wrapped in quotation marks is read without them. *)
Theorem pipe_unquoted : forall a s b, (a = 34%N \/ a = 39%N) -> (b = 34%N \/ b = 39%N) -> Cli_Model.unquote (a :: s ++ [b]) = s.
Proof.
  intros a s b Ha Hb. unfold Cli_Model.unquote. cbn [hd_error]. rewrite (app_comm_cons s [b] a), rev_app_distr. cbn [rev app hd_error].
  assert (is_quote (Some a) = true /\ is_quote (Some b) = true) as [-> ->] by (destruct Ha as [->| ->], Hb as [->| ->]; split; reflexivity). cbn [andb].
  apply (pyslice_mid [a] s [b] 1); reflexivity || lia.
Qed.
Print Assumptions pipe_unquoted.
Theorem pipe_not_quoted : forall a s b, (a <> 34%N /\ a <> 39%N) \/ (b <> 34%N /\ b <> 39%N) -> Cli_Model.unquote (a :: s ++ [b]) = a :: s ++ [b].
Proof.
  intros a s b H. unfold Cli_Model.unquote. cbn [hd_error]. rewrite (app_comm_cons s [b] a), rev_app_distr. cbn [rev app hd_error].
  assert (Q : forall c, c <> 34%N /\ c <> 39%N -> is_quote (Some c) = false) by (intros c [A B]; cbn; apply N.eqb_neq in A, B; rewrite A, B; reflexivity).
  destruct H as [H|H]; rewrite (Q _ H); [|rewrite andb_false_r]; reflexivity.
Qed.
Print Assumptions pipe_not_quoted.

From Verif Require Import Joins_Syntax Joins_Model.
(** FULL JOIN and CROSS/OUTER spellings the compiler does not know are refused: without RIGHT and INNER joins, one FULL or OUTER join is enough. *)
Theorem full_join_rejected : forall cmpv d fuel p js w, (forall j, In j js -> jside j <> SRight /\ jkind j <> KInner) -> (exists j, In j js /\ (jside j = SFull \/ jkind j = KOuter)) ->
  exists e, run_query cmpv d fuel (Query [p] js w) = Some (Err e).
Proof.
  intros cmpv d fuel p js w H (j & Ij & Hj). unfold run_query, optimize. assert (multi_select (Query [p] js w) = Query [p] js w) as -> by reflexivity. cbv zeta. cbn [qjoins].
  destruct js as [|j0 js0] eqn:E; [contradiction|]. rewrite <- E in *. clear E j0 js0.
  assert (existsb (fun j => match jside j with SRight => true | _ => false end) js = false) as ->.
  { apply Bool.not_true_is_false. intro A. apply existsb_exists in A. destruct A as (k & Ik & K). destruct (H k Ik) as [N _]. destruct (jside k); try discriminate K. congruence. }
  cbv iota. cbn [qjoins].
  assert (existsb (fun j => match jkind j with KInner => true | _ => false end) js = false) as ->.
  { apply Bool.not_true_is_false. intro A. apply existsb_exists in A. destruct A as (k & Ik & K). destruct (H k Ik) as [_ N]. destruct (jkind k); try discriminate K. congruence. }
  unfold execute. cbn [qfrom qjoins qwhere].
  assert (R : forall es, exists e, run_joins cmpv d p js es = Err e).
  { clear H. induction js as [|k js IH]; intro es; [contradiction|]. cbn [run_joins]. destruct (join_type_ok k) eqn:T; [|eexists; reflexivity].
    destruct (parse_on cmpv (jtab k) (Plan [] [] []) (jon k)) as [pl|e]; [|eexists; reflexivity]. destruct Ij as [->|Ij]; [|apply IH, Ij].
    exfalso. unfold join_type_ok in T. destruct Hj as [Hj|Hj]; rewrite Hj in T; [rewrite andb_false_r in T|]; discriminate T. }
  destruct (R (map (fun r => [(p, Some r)]) (d p))) as [e ->]. exists e. reflexivity.
Qed.
Print Assumptions full_join_rejected.

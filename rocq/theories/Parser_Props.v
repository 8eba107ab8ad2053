(** Property theorems C01-C06 (script splitting, prompt completeness, quoted-name placeholders). *)
From Verif Require Import Base Parser_Model Parser_Spec Parser_Proofs Parser_Corollaries Mapping_Model Mapping_Proofs.

(** C01 for every script: splitting always terminates, and either reports end-of-file or returns
    segments that are verbatim, in order, disjoint, start at a letter, end at a ';' or the end,
    and carry the right line. *)
Theorem split_segments_verbatim : forall isalpha sql,
  (exists s segs, split isalpha sql = Done s segs /\ placed isalpha sql 0 segs)
  \/ (exists s, split isalpha sql = Eof s).
Proof. exact split_verbatim. Qed.
Print Assumptions split_segments_verbatim.

(** C01/C02/C03/C04: for every script whose comments are plain, splitting returns exactly the
    specified statements, and fails exactly when a quote or block comment is left open. *)
Theorem split_matches_spec : forall isalpha, isalpha 47%N = false ->
  forall sql, comments_plain sql ->
  if closed sql then exists s, split isalpha sql = Done s (statements isalpha sql)
  else exists s, split isalpha sql = Eof s.
Proof. exact split_correct. Qed.
Print Assumptions split_matches_spec.

Example comments_plain_example :
  let sql := t "select 1; -- it is; here
select 'a;b\'c' /* x; */ ; # end" in
  comments_plain sql /\ closed sql = true /\
  statements ascii_alpha sql = [(t "select 1", 1); (t "select 'a;b\'c' /* x; */ ", 2)].
Proof.
  cbv zeta. set (sql := t _). split; [|split; vm_compute; reflexivity].
  unfold comments_plain.
  assert (F : forallb (fun i =>
    match nth_error (classes sql) i with
    | Some Comment =>
       negb (match nth_error sql i with Some c => (c =? 39)%N || (c =? 34)%N | None => false end) &&
       negb (text_eqb (firstn 3 (skipn i sql)) [47; 42; 47]%N) && negb (text_eqb (firstn 3 (skipn i sql)) [42; 47; 42]%N)
    | _ => true end) (seq 0 (length sql)) = true) by (vm_compute; reflexivity).
  rewrite forallb_forall in F.
  intros i Hi.
  assert (Hlt : i < length sql).
  { apply nth_error_Some. intro K. apply nth_error_None in K.
    assert (length (classes sql) = length sql) by apply classify_length.
    assert (i < length (classes sql)) by (apply nth_error_Some; congruence). lia. }
  assert (G := F i (proj2 (in_seq _ _ _) (conj (Nat.le_0_l i) Hlt))). rewrite Hi in G.
  apply andb_true_iff in G as [G G3]. apply andb_true_iff in G as [G1 G2].
  apply negb_true_iff in G1, G2, G3. apply text_eqb_neq in G2, G3.
  repeat split; auto; intro K; rewrite K in G1; discriminate.
Qed.

(** C02: joining well-formed statements with ';' and splitting gives the statements back. *)
Theorem split_join_roundtrip : forall isalpha, isalpha 47%N = false ->
  forall l, Forall (plain_stmt isalpha) l ->
  exists s, split isalpha (join_semi l) = Done s (with_lines 1 l).
Proof. exact split_join. Qed.
Print Assumptions split_join_roundtrip.

Example plain_stmt_example : plain_stmt ascii_alpha (t "select ';\';', "";"", `a;b` from x").
Proof. repeat split; try (vm_compute; reflexivity); vm_compute; intuition congruence. Qed.

(** C03: the quoted part opened at any position of any text ends right after the first
    unescaped occurrence of its quote; without one the result is an end-of-file error. *)
Theorem quote_ends_at_first_unescaped : forall sql start q fuel,
  nth_error sql (idx start) = Some q -> (q =? 92)%N = false ->
  lno start = S (count_nl (firstn (idx start) sql)) -> length sql < fuel ->
  let rest := skipn (S (idx start)) sql in
  (exists i, closes q rest i /\ (forall j, j < i -> ~ closes q rest j) /\
     exists l, skip_escape fuel sql q start = Done (mkp (idx start + i + 2) l) tt)
  \/ ((forall i, ~ closes q rest i) /\ exists s, skip_escape fuel sql q start = Eof s).
Proof. exact skip_escape_closes. Qed.
Print Assumptions quote_ends_at_first_unescaped.

Example quote_example :
  skip_escape 20 (t "x'a\'b\\'c") QS (mkp 1 1) = Done (mkp 9 1) tt.
Proof. vm_compute. reflexivity. Qed.

(** C03, whole scripts: a script that ends inside a quoted part is rejected. *)
Theorem split_rejects_open_quote : forall isalpha, isalpha 47%N = false ->
  forall sql, comments_plain sql -> closed sql = false -> exists s, split isalpha sql = Eof s.
Proof.
  intros al H sql Hp Hc. assert (S := split_correct al H sql Hp). rewrite Hc in S. exact S.
Qed.
Print Assumptions split_rejects_open_quote.

(** C04 (part): a comment with harmless text between complete statements changes nothing. *)
Theorem comment_between_statements : forall isalpha, isalpha 47%N = false -> isalpha 42%N = false ->
  forall l1 cm l2, Forall (plain_stmt isalpha) l1 -> good_comment cm -> Forall (plain_stmt isalpha) l2 ->
  exists s segs, split isalpha (ended l1 ++ cm ++ join_semi l2) = Done s segs /\ map fst segs = l1 ++ l2.
Proof. exact comment_between. Qed.
Print Assumptions comment_between_statements.

Example good_comment_example : good_comment (t "/* a; b -- c # d */") /\ good_comment (t "-- a; b
").
Proof.
  split.
  - apply (gc_block (t " a; b -- c # d ")). cbn; repeat (constructor; [repeat split; discriminate|]); constructor.
  - apply (gc_dash (t " a; b")). cbn; repeat (constructor; [repeat split; discriminate|]); constructor.
Qed.

(** C04 is false of the code without the restriction on the comment's text: an apostrophe in a
    line comment silently discards the statement on the next line... *)
Theorem comment_apostrophe_refuted : exists sql,
  closed sql = true /\ statements ascii_alpha sql = [(t "select 1", 2)] /\
  exists s, split ascii_alpha sql = Done s [].
Proof.
  exists (t "-- don't
select 1;"). split; [|split]; [vm_compute; reflexivity..|]. eexists. vm_compute. reflexivity.
Qed.
Print Assumptions comment_apostrophe_refuted.

(** ... and a block comment followed at once by '*' makes the script be rejected. *)
Theorem comment_then_star_refuted : exists sql,
  closed sql = true /\ statements ascii_alpha sql = [(sql, 1)] /\
  exists s, split ascii_alpha sql = Eof s.
Proof.
  exists (t "select 2/* two */*3"). split; [|split]; [vm_compute; reflexivity..|]. eexists. vm_compute. reflexivity.
Qed.
Print Assumptions comment_then_star_refuted.

(** C05: the prompt keeps reading exactly when the (stripped) buffer is non-empty, is no
    exit/!/% command and has no ';' outside quoted parts. *)
Theorem prompt_completeness : forall isspace content,
  check_complete isspace content = true <->
  (let s := strip isspace content in
   s <> [] /\ firstn 4 s <> t "exit" /\ hd_error s <> Some 33%N /\ hd_error s <> Some 37%N /\
   find_outside [96; 34; 39]%N 59%N None s = None).
Proof. exact check_complete_correct. Qed.
Print Assumptions prompt_completeness.

Example prompt_example :
  check_complete (N.eqb 32) (t " select ';' ") = true /\ check_complete (N.eqb 32) (t " select ';';") = false.
Proof. split; vm_compute; reflexivity. Qed.

(** C06: placeholders round trip; the text handed to the SQL parser has only names without quotes. *)
Theorem placeholders_roundtrip : forall alnum uuid,
  (alnum 34 = false /\ alnum 39 = false /\ alnum 96 = false)%N ->
  (forall i c, In c (uuid i) -> (48 <= c <= 57)%N) ->
  (forall i j, uuid i = uuid j -> i = j) ->
  forall s p, decomposes s p ->
  (forall n a i, In n (names p) -> n <> a ++ [95%N] ++ uuid i) ->
  exists out m k, parse_mapping alnum uuid [] s = Some (out, m, k) /\ to_sql m out = Some s /\
    exists p', decomposes out p' /\ Forall (Forall (fun c => c <> 34%N /\ c <> 39%N /\ c <> 96%N)) (names p').
Proof. exact mapping_roundtrip. Qed.
Print Assumptions placeholders_roundtrip.

(** Every text has a decomposition, so the previous theorem covers every text. *)
Theorem decomposition_exists : forall s, exists p, decomposes s p.
Proof. intro s. exact (decomposes_total (length s) s (le_n _)). Qed.
Print Assumptions decomposition_exists.

Example placeholders_example :
  parse_mapping ascii_alpha (fun k => repeat 48%N (S k)) [] (t "select `a-b`, `c` from `x y`") =
  Some (t "select `a_0`, `c` from `x_00`", [(t "x_00", t "x y"); (t "a_0", t "a-b")], 2).
Proof. vm_compute. reflexivity. Qed.

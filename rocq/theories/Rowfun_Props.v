(** C254, C255: ROW_INDEX and ROW_LAST. *)
From Verif Require Import Base Assign_Syntax Rowfun_Syntax Rowfun_Spec Rowfun_Model.
Local Open Scope nat_scope.
Section Induction.
Variable V : Type.
Variable P : rexpr V -> Prop.
Hypotheses (Hc : forall v, P (RConst v)) (Hn : forall n, P (RCol n)) (Hi : P RIndex) (Hl : forall e, P e -> P (RLast e)) (Hf : forall f l, Forall P l -> P (RCall f l))
  (Hif : forall c a b, P c -> P a -> P b -> P (RIf c a b)) (Hin : forall a b, P a -> P b -> P (RIfNull a b)).
Fixpoint rexpr_induction (e : rexpr V) : P e :=
  match e with
  | RConst v => Hc v | RCol n => Hn n | RIndex => Hi | RLast e => Hl e (rexpr_induction e)
  | RCall f l => Hf f l ((fix all l : Forall P l := match l with [] => Forall_nil P | a :: r => Forall_cons a (rexpr_induction a) (all r) end) l)
  | RIf c a b => Hif c a b (rexpr_induction c) (rexpr_induction a) (rexpr_induction b)
  | RIfNull a b => Hin a b (rexpr_induction a) (rexpr_induction b)
  end.
End Induction.

Section Props.
Variable V : Type.
Variable L : values V.
Variable number : nat -> V.
Variable null_test : bool -> V.
Hypothesis truth : forall b, v_true L (null_test b) = b.
Notation value := (value V L number).
Notation ev := (ev V L number null_test).
Notation compile := (compile V L).
Notation free := (free V).
Notation steady := (steady V).

Lemma free_run : forall e, free e -> forall before r, ev r (compile e) = (value before r e, compile e).
Proof.
  induction e as [v|n| |e IH|f l IH|c a b IHc IHa IHb|a b IHa IHb] using rexpr_induction; intros F before r; inversion F; subst; cbn [Rowfun_Model.compile Rowfun_Model.ev Rowfun_Spec.value]; try reflexivity.
  - assert (E : map (ev r) (map compile l) = map (fun e => (value before r e, compile e)) l).
    { rewrite map_map. apply map_ext_in. intros e I. rewrite Forall_forall in *. apply IH; [exact I|]. match goal with H : forall x, In x l -> free x |- _ => apply H, I end. }
    cbv zeta. rewrite E, !map_map. cbn [fst snd]. reflexivity.
  - rewrite (IHc ltac:(assumption) before r). destruct (v_true L _); [rewrite (IHa ltac:(assumption) before r)|rewrite (IHb ltac:(assumption) before r)]; reflexivity.
  - rewrite (IHa ltac:(assumption) before r). cbv beta iota. rewrite truth. destruct (v_isnull L _); [rewrite (IHb ltac:(assumption) before r)|]; reflexivity.
Qed.
(** The calculaters of an expression after the rows [before]. *)
Fixpoint state (before : list (row V)) (e : rexpr V) : valuer V :=
  match e with
  | RIndex => QIndex V (length before)
  | RLast e' => QLast V (match before with [] => v_null L | r :: before' => value before' r e' end) (state before e')
  | RCall f l => QCall V f (map (state before) l)
  | RIf c a b => QIf V (state before c) (compile a) (compile b)
  | _ => compile e
  end.
Lemma state_start : forall e, state [] e = compile e.
Proof.
  induction e as [v|n| |e IH|f l IH|c a b IHc IHa IHb|a b IHa IHb] using rexpr_induction; cbn [state Rowfun_Model.compile]; try reflexivity.
  - rewrite IH. reflexivity.
  - f_equal. apply map_ext_in. rewrite Forall_forall in IH. exact IH.
  - rewrite IHc. reflexivity.
Qed.
Lemma state_free : forall e before, free e -> state before e = compile e.
Proof.
  induction e as [v|n| |e IH|f l IH|c a b IHc IHa IHb|a b IHa IHb] using rexpr_induction; intros before F; inversion F; subst; cbn [state Rowfun_Model.compile]; try reflexivity.
  - f_equal. apply map_ext_in. rewrite Forall_forall in *. intros e I. apply IH; [exact I|]. match goal with H : forall x, In x l -> free x |- _ => apply H, I end.
  - rewrite IHc by assumption. reflexivity.
Qed.
Lemma steady_run : forall e, steady e -> forall before r, ev r (state before e) = (value before r e, state (r :: before) e).
Proof.
  induction e as [v|n| |e IH|f l IH|c a b IHc IHa IHb|a b IHa IHb] using rexpr_induction; intros S before r;
    inversion S as [e0 F| |e0 S'|f0 l0 S'|c0 a0 b0 Sc Fa Fb]; subst;
    try (rewrite !(state_free _ _ F); apply free_run; exact F); cbn [state Rowfun_Model.ev Rowfun_Spec.value]; try reflexivity.
  - rewrite (IH S' before r). reflexivity.
  - assert (E : map (ev r) (map (state before) l) = map (fun e => (value before r e, state (r :: before) e)) l).
    { rewrite map_map. apply map_ext_in. intros e I. rewrite Forall_forall in *. apply IH; [exact I|apply S', I]. }
    cbv zeta. rewrite E, !map_map. cbn [fst snd]. reflexivity.
  - rewrite (IHc Sc before r). destruct (v_true L _); [rewrite (free_run a Fa before r)|rewrite (free_run b Fb before r)]; reflexivity.
Qed.
(** C254.  Every row shows what the rows before it say. *)
Theorem row_functions : forall items rows, Forall steady items -> select V L number null_test items rows = results V L number items [] rows.
Proof.
  intros items rows S. unfold select. rewrite (map_ext compile (state []) (fun e => eq_sym (state_start e))).
  generalize (@nil (row V)) as before. induction rows as [|r rows IH]; intros before; [reflexivity|]. cbn [rows_of results]. cbv zeta.
  assert (E : map (ev r) (map (state before) items) = map (fun e => (value before r e, state (r :: before) e)) items).
  { rewrite map_map. apply map_ext_in. intros e I. rewrite Forall_forall in S. apply steady_run, S, I. }
  rewrite E, !map_map. cbn [fst snd]. rewrite IH. reflexivity.
Qed.
(** The rows are numbered, and the row before the first is NULL. *)
Lemma numbered : forall rows before, results V L number [RIndex] before rows = map (fun k => [number (S k)]) (seq (length before) (length rows)).
Proof. induction rows as [|r rows IH]; intros before; [reflexivity|]. cbn [results length seq map Rowfun_Spec.value]. rewrite IH. reflexivity. Qed.
Theorem row_index_numbers : forall rows, select V L number null_test [RIndex] rows = map (fun k => [number k]) (seq 1 (length rows)).
Proof.
  intros rows. rewrite row_functions by (apply Forall_cons; [constructor|apply Forall_nil]). rewrite numbered. cbn [length]. rewrite <- seq_shift, map_map. reflexivity.
Qed.
Lemma shifted : forall n rows r before, results V L number [RLast (RCol n)] (r :: before) rows = firstn (length rows) (map (fun r => [r n]) (r :: rows)).
Proof. intros n. induction rows as [|r' rows IH]; intros r before; [reflexivity|]. cbn [results length map firstn Rowfun_Spec.value]. rewrite IH. reflexivity. Qed.
Theorem row_last_shifts : forall n rows, select V L number null_test [RLast (RCol n)] rows = firstn (length rows) ([v_null L] :: map (fun r => [r n]) rows).
Proof.
  intros n rows. rewrite row_functions by (apply Forall_cons; [apply S_last, S_free; constructor|apply Forall_nil]).
  destruct rows as [|r rows]; [reflexivity|]. cbn [results length firstn map Rowfun_Spec.value]. rewrite shifted. reflexivity.
Qed.
End Props.
Print Assumptions row_functions.
Print Assumptions row_index_numbers.
Print Assumptions row_last_shifts.

(** Values of the examples: numbers and NULL; the function add; a number is true unless it is 0. *)
Definition nv : values (option nat) := Values (option nat) (fun _ l => match l with [Some a; Some b] => Some (a + b) | _ => None end) (fun v => match v with Some (S _) => true | _ => false end)
  (fun v => match v with None => true | _ => false end) None (fun a b => match a, b with Some x, Some y => Nat.eqb x y | None, None => true | _, _ => false end).
Definition nt (b : bool) : option nat := Some (if b then 1 else 0).
Definition xrow (k : nat) : row (option nat) := fun _ => Some k.
Definition xs : list (row (option nat)) := [xrow 5; xrow 7; xrow 9].
(** SELECT ROW_INDEX(), ROW_LAST(x), x + ROW_LAST(ROW_LAST(x)), IF(ROW_LAST(x), 1, 0) FROM t *)
Definition items_x : list (rexpr (option nat)) :=
  [RIndex; RLast (RCol (t "x")); RCall (t "add") [RCol (t "x"); RLast (RLast (RCol (t "x")))]; RIf (RLast (RCol (t "x"))) (RConst (Some 1)) (RConst (Some 0))].
Example items_steady : Forall (steady (option nat)) items_x.
Proof. repeat first [apply Forall_cons|apply Forall_nil|apply S_index|apply S_last|apply S_call|apply S_if|apply S_free, F_col|apply F_const]. Qed.
Example row_functions_apply : select (option nat) nv Some nt items_x xs =
  [[Some 1; None; None; Some 0]; [Some 2; Some 5; None; Some 1]; [Some 3; Some 7; Some 14; Some 1]].
Proof. rewrite (row_functions (option nat) nv Some nt) by (intros [|]; reflexivity) || exact items_steady. all: reflexivity || exact items_steady. Qed.
(** C255.  IFNULL(ROW_LAST(x), 0) shows NULL in the second row: its operand stands twice in the compiled expression, and the second one has not seen the first row. *)
Theorem row_last_ifnull_refuted : exists rows items,
  select (option nat) nv Some nt items rows <> results (option nat) nv Some items [] rows /\ In (RIfNull (RLast (RCol (t "x"))) (RConst (Some 0))) items /\
  select (option nat) nv Some nt items rows = [[Some 0]; [None]; [Some 7]].
Proof. exists xs, [RIfNull (RLast (RCol (t "x"))) (RConst (Some 0))]. split; [vm_compute; discriminate|]. split; [left; reflexivity|reflexivity]. Qed.
(** ... and in a branch of IF only the rows which take that branch are seen: IF(x = 7, 0, ROW_INDEX()) shows 1, 0, 2. *)
Theorem row_index_branch_refuted : exists rows items,
  select (option nat) nv Some nt items rows <> results (option nat) nv Some items [] rows /\ select (option nat) nv Some nt items rows = [[Some 1]; [Some 0]; [Some 2]].
Proof.
  exists [fun _ => Some 0; fun _ => Some 1; fun _ => Some 0], [RIf (RCol (t "x")) (RConst (Some 0)) RIndex]. split; [vm_compute; discriminate|reflexivity].
Qed.
Print Assumptions row_last_ifnull_refuted.
Print Assumptions row_index_branch_refuted.

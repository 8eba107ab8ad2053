(** What splitting a script should mean, written without reference to the parser:
    every character of the script is classified as code, quoted, comment or separator,
    and a statement is the text between separators from its first letter of code on. *)
From Verif Require Import Base.

Inductive cls := Code | Quoted | Comment | Sep.

Inductive mode :=
| MCode
| MQuote (q : N) (odd : bool)  (* inside quotes opened by q; odd: an odd run of backslashes precedes *)
| MLine                        (* in a comment that runs to the end of the line *)
| MOpen                        (* at the '*' of the opening '/*' *)
| MBlock (star : bool).        (* inside /* */; star: the previous character was a '*' *)

Definition is_quote (c : N) : bool := ((c =? 96) || (c =? 34) || (c =? 39))%N.
Definition starts2 (a b : N) (s : text) : bool :=
  match s with x :: y :: _ => ((x =? a) && (y =? b))%N | _ => false end.

(** The class of every character, and whether the script ends outside quotes and block comments. *)
Fixpoint classify (m : mode) (s : text) : list cls * bool :=
  match s with
  | [] => ([], match m with MCode | MLine => true | _ => false end)
  | c :: r =>
    let put k m' := let p := classify m' r in (k :: fst p, snd p) in
    match m with
    | MCode =>
      if is_quote c then put Quoted (MQuote c false)
      else if (c =? 35)%N then put Comment MLine                     (* # *)
      else if starts2 45 45 s then put Comment MLine                 (* -- *)
      else if starts2 47 42 s then put Comment MOpen                 (* /* *)
      else if (c =? 59)%N then put Sep MCode                         (* ; *)
      else put Code MCode
    | MQuote q odd =>
      if ((c =? q)%N && negb odd) then put Quoted MCode
      else put Quoted (MQuote q ((c =? 92)%N && negb odd))
    | MLine => put Comment (if (c =? 10)%N then MCode else MLine)
    | MOpen => put Comment (MBlock false)
    | MBlock star =>
      if (star && (c =? 47)%N) then put Comment MCode
      else put Comment (MBlock (c =? 42)%N)
    end
  end.

Definition classes (s : text) : list cls := fst (classify MCode s).
Definition closed (s : text) : bool := snd (classify MCode s).

(** Each character with the 1-based line it is on. *)
Fixpoint lined (line : nat) (s : text) : list (N * nat) :=
  match s with
  | [] => []
  | c :: r => (c, line) :: lined (if (c =? 10)%N then S line else line) r
  end.

Definition char := (cls * (N * nat))%type.

(** Maximal runs between separators. *)
Fixpoint groups (l : list char) : list (list char) :=
  match l with
  | [] => [[]]
  | (Sep, _) :: r => [] :: groups r
  | x :: r => match groups r with [] => [[x]] | g :: gs => (x :: g) :: gs end
  end.

Fixpoint drop_until {A} (p : A -> bool) (l : list A) : list A :=
  match l with [] => [] | x :: r => if p x then l else drop_until p r end.

Definition starts_stmt (isalpha : N -> bool) (x : char) : bool :=
  match x with (Code, (c, _)) => isalpha c | _ => false end.

Definition stmt_of (isalpha : N -> bool) (g : list char) : list (text * nat) :=
  match drop_until (starts_stmt isalpha) g with
  | [] => []
  | (k, (c, line)) :: r => [(c :: map (fun x : char => fst (snd x)) r, line)]
  end.

Definition statements (isalpha : N -> bool) (s : text) : list (text * nat) :=
  flat_map (stmt_of isalpha) (groups (combine (classes s) (lined 1 s))).

(** The scripts on which comments are harmless for the implementation: no comment contains a
    single or double quote, and no comment overlaps "/*/" or "*/*". *)
Definition comments_plain_in (s : text) (k : list cls) : Prop :=
  forall i, nth_error k i = Some Comment ->
    nth_error s i <> Some 39%N /\ nth_error s i <> Some 34%N /\
    (nth_error k (S i) = Some Comment ->
     firstn 3 (skipn i s) <> [47; 42; 47]%N /\ firstn 3 (skipn i s) <> [42; 47; 42]%N).
Definition comments_plain (s : text) : Prop := comments_plain_in s (classes s).

(** A statement that needs no care: starts with a letter, all quotes closed, no separator and no comment. *)
Definition plain_stmt (isalpha : N -> bool) (s : text) : Prop :=
  match s with
  | [] => False
  | c :: _ => isalpha c = true /\ hd_error (classes s) = Some Code
  end /\ closed s = true /\ ~ In Sep (classes s) /\ ~ In Comment (classes s).

Fixpoint join_semi (l : list text) : text :=
  match l with
  | [] => []
  | [s] => s
  | s :: r => s ++ 59%N :: join_semi r
  end.

(** Line number of each of several statements joined by ';'. *)
Definition count_nl (s : text) : nat := length (filter (N.eqb 10) s).
Fixpoint with_lines (line : nat) (l : list text) : list (text * nat) :=
  match l with
  | [] => []
  | s :: r => (s, line) :: with_lines (line + count_nl s) r
  end.

(** Where a quoted part ends: the quote character at position [i] of the text after the opening
    quote is preceded by an even number of backslashes. *)
Fixpoint leading_bs (s : text) : nat :=
  match s with c :: r => if (c =? 92)%N then S (leading_bs r) else 0 | [] => 0 end.
Definition closes (q : N) (s : text) (i : nat) : Prop :=
  nth_error s i = Some q /\ Nat.even (leading_bs (rev (firstn i s))) = true.

(** Segments lie in the script one after the other: each is the text [a..b) for some
    start a (a letter) and end b (a ';' or the end of the script). *)
Inductive placed (isalpha : N -> bool) (s : text) : nat -> list (text * nat) -> Prop :=
| placed_nil : forall o, placed isalpha s o []
| placed_cons : forall o a b c line segs,
    o <= a -> a < b -> b <= length s ->
    nth_error s a = Some c -> isalpha c = true ->
    line = 1 + count_nl (firstn a s) ->
    (nth_error s b = Some 59%N \/ (b = length s /\ segs = [])) ->
    placed isalpha s (S b) segs ->
    placed isalpha s o ((firstn (b - a) (skipn a s), line) :: segs).

(** Position of the first [target] character outside quoted parts; quoted parts are opened by a
    character of [qs] and closed by the same character unless escaped. *)
Fixpoint find_outside (qs : list N) (target : N) (inq : option (N * bool)) (s : text) : option nat :=
  match s with
  | [] => None
  | c :: r =>
    match inq with
    | None =>
      if existsb (N.eqb c) qs then option_map S (find_outside qs target (Some (c, false)) r)
      else if (c =? target)%N then Some 0
      else option_map S (find_outside qs target None r)
    | Some (q, odd) =>
      if ((c =? q)%N && negb odd) then option_map S (find_outside qs target None r)
      else option_map S (find_outside qs target (Some (q, (c =? 92)%N && negb odd)) r)
    end
  end.

(** The backquoted names of a statement, left to right: text before the opening quote, name. *)
Inductive pieces :=
| PEnd (s : text)
| PName (before name : text) (rest : pieces).

Fixpoint render (p : pieces) : text :=
  match p with
  | PEnd s => s
  | PName b n r => b ++ 96%N :: n ++ 96%N :: render r
  end.
Fixpoint names (p : pieces) : list text :=
  match p with PEnd _ => [] | PName _ n r => n :: names r end.

(** [p] is the decomposition of the statement text [s]. *)
Definition find_bq := find_outside [34; 39]%N 96%N None.
Inductive decomposes : text -> pieces -> Prop :=
| dec_none : forall s, find_bq s = None -> decomposes s (PEnd s)
| dec_open : forall b r, find_bq (b ++ 96%N :: r) = Some (length b) -> find_bq r = None ->
    decomposes (b ++ 96%N :: r) (PEnd (b ++ 96%N :: r))
| dec_name : forall b n r p, find_bq (b ++ 96%N :: n ++ 96%N :: r) = Some (length b) ->
    find_bq (n ++ 96%N :: r) = Some (length n) -> decomposes r p ->
    decomposes (b ++ 96%N :: n ++ 96%N :: r) (PName b n p).

(** Comments with harmless text: to the end of line ('#' or '--') or between /* and */. *)
Inductive good_comment : text -> Prop :=
| gc_hash : forall b, Forall (fun c => c <> 39%N /\ c <> 34%N /\ c <> 42%N /\ c <> 10%N) b ->
    good_comment (35%N :: b ++ [10%N])
| gc_dash : forall b, Forall (fun c => c <> 39%N /\ c <> 34%N /\ c <> 42%N /\ c <> 10%N) b ->
    good_comment (45%N :: 45%N :: b ++ [10%N])
| gc_block : forall b, Forall (fun c => c <> 39%N /\ c <> 34%N /\ c <> 42%N /\ c <> 47%N) b ->
    good_comment (47%N :: 42%N :: b ++ [42%N; 47%N]).

(** Statements each followed by a ';'. *)
Definition ended (l : list text) : text := fold_right (fun s acc => s ++ 59%N :: acc) [] l.

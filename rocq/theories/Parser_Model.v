(** Model of syncanysql/parser.py (class SqlParser): an index machine over the script text.
    The fields [self.sql] / [self.len] are the fixed argument [sql]; [self.index] and
    [self.lineno] form the state.  Loops carry fuel; running out is the separate outcome
    [NoFuel], proved impossible in Parser_Proofs.v. *)
From Verif Require Import Base.

(** parser.py:21-25, the mutable fields. *)
Record pst := mkp { idx : nat; lno : nat }.

(** Outcome of a method: normal return, EOFError (with the state the object is left in), or
    model fuel exhausted. *)
Inductive out (A : Type) :=
| Done (s : pst) (a : A)
| Eof (s : pst)
| NoFuel.
Arguments Done {A}. Arguments Eof {A}. Arguments NoFuel {A}.

Definition NL : N := 10.   Definition BSL : N := 92.
Definition QS : N := 39.   Definition QD : N := 34.  Definition QB : N := 96.
Definition HASH : N := 35. Definition SEMI : N := 59. Definition DASH : N := 45.
Definition SLASH : N := 47. Definition STAR : N := 42.

Definition in_chars (c : N) (l : list N) : bool := existsb (N.eqb c) l.

(** parser.py:27-32 *)
Definition next (sql : text) (s : pst) : pst :=
  match nth_error sql (idx s) with
  | None => s
  | Some c => mkp (S (idx s)) (if N.eqb c NL then S (lno s) else lno s)
  end.

(** [self.sql[a:b]] with non-negative bounds. *)
Definition slice (sql : text) (a b : nat) : text := firstn (b - a) (skipn a sql).

(** parser.py:45-49: the inner while; argument [k] is backslash+1; result is the final
    value of [backslash] (which can be -1). *)
Fixpoint back (sql : text) (k : nat) : Z :=
  match k with
  | 0%nat => (-1)%Z
  | S j => match nth_error sql j with
           | Some c => if N.eqb c BSL then back sql j else Z.of_nat j
           | None => Z.of_nat j
           end
  end.

(** parser.py:41-56: the loop of skip_escape. *)
Fixpoint skip_loop (fuel : nat) (sql : text) (c : N) (s : pst) : out unit :=
  match fuel with
  | 0%nat => NoFuel
  | S f =>
    match nth_error sql (idx s) with
    | None => Eof (next sql s)
    | Some x =>
      if negb (N.eqb x c) then skip_loop f sql c (next sql s)
      else
        let b := back sql (idx s) in
        if negb (Z.eqb (Z.modulo (Z.of_nat (idx s) - b + 1) 2) 0)
        then skip_loop f sql c (next sql s)
        else Done (next sql s) tt
    end
  end.

(** parser.py:38-56; the returned slice is not used by any caller in split/read_util. *)
Definition skip_escape (fuel : nat) (sql : text) (c : N) (s : pst) : out unit :=
  skip_loop fuel sql c (next sql s).

(** parser.py:58-68.  Returns (start_index, end_index, text). *)
Fixpoint read_util_loop (fuel : nat) (sql : text) (cs : text) (esc : list N) (start : nat) (s : pst)
  : out (nat * nat * text) :=
  match fuel with
  | 0%nat => NoFuel
  | S f =>
    match nth_error sql (idx s) with
    | None => Eof s
    | Some x =>
      if in_chars x esc then
        match skip_escape f sql x s with
        | Done s' _ => read_util_loop f sql cs esc start s'
        | Eof s' => Eof s'
        | NoFuel => NoFuel
        end
      else if negb (text_eqb (slice sql (idx s) (idx s + length cs)) cs)
      then read_util_loop f sql cs esc start (next sql s)
      else Done s (start, (idx s + length cs - 1)%nat, slice sql start (idx s + length cs - 1))
    end
  end.
Definition read_util (fuel : nat) (sql cs : text) (esc : list N) (s : pst) :=
  read_util_loop fuel sql cs esc (idx s) s.
Definition default_esc : list N := [QD; QS].

(** parser.py:70-77: the while loop returns on its first iteration. *)
Definition read_segment (fuel : nat) (sql : text) (c : N) (s : pst) : out (nat * nat * text) :=
  match nth_error sql (idx s) with
  | None => Eof s
  | Some _ =>
    match read_util fuel sql [c] default_esc s with
    | Done s1 _ =>
      match read_util fuel sql [c] default_esc (next sql s1) with
      | Done s2 r => Done (next sql s2) r
      | Eof s2 => Eof s2
      | NoFuel => NoFuel
      end
    | Eof s1 => Eof s1
    | NoFuel => NoFuel
    end
  end.

(** parser.py:79-81: returns None (here [Done s None]) on empty input. *)
Definition read_util_complete (fuel : nat) (sql : text) (s : pst) : out (option (nat * nat * text)) :=
  match nth_error sql (idx s) with
  | None => Done s None
  | Some _ =>
    match read_util fuel sql [SEMI] [QB; QD; QS] s with
    | Done s' r => Done s' (Some r)
    | Eof s' => Eof s'
    | NoFuel => NoFuel
    end
  end.

(** parser.py:9-15 SqlSegment: text and line number. *)
Definition segment := (text * nat)%type.

(** parser.py:83-123.  [isalpha] is Python's str.isalpha on one character (external). *)
Fixpoint split_loop (isalpha : N -> bool) (fuel : nat) (sql : text)
         (segs : list segment) (line : nat) (start : option nat) (s : pst) : out (list segment) :=
  match fuel with
  | 0%nat => NoFuel
  | S f =>
    match nth_error sql (idx s) with
    | None => (* line 121-123 *)
      match start with
      | Some a => if Nat.ltb a (idx s) then Done s (segs ++ [(slice sql a (idx s), line)])
                  else Done s segs
      | None => Done s segs
      end
    | Some x =>
      if in_chars x [QB; QD; QS] then (* 87-89 *)
        match skip_escape f sql x s with
        | Done s' _ => split_loop isalpha f sql segs line start s'
        | Eof s' => Eof s'
        | NoFuel => NoFuel
        end
      else if N.eqb x HASH then (* 90-96 *)
        match read_util f sql [NL] default_esc s with
        | Done s' _ | Eof s' => split_loop isalpha f sql segs line start (next sql s')
        | NoFuel => NoFuel
        end
      else
        let seg := slice sql (idx s) (idx s + 2) in
        if text_eqb seg [DASH; DASH] then (* 98-104 *)
          match read_util f sql [NL] default_esc s with
          | Done s' _ | Eof s' => split_loop isalpha f sql segs line start (next sql s')
          | NoFuel => NoFuel
          end
        else if text_eqb seg [SLASH; STAR] then (* 105-108 *)
          match read_util f sql [STAR; SLASH] default_esc s with
          | Done s' _ => split_loop isalpha f sql segs line start (next sql s')
          | Eof s' => Eof s'
          | NoFuel => NoFuel
          end
        else if N.eqb x SEMI then (* 109-117 *)
          match start with
          | None => split_loop isalpha f sql segs line start (next sql s)
          | Some a =>
            let segs' := if Nat.ltb a (idx s) then segs ++ [(slice sql a (idx s), line)] else segs in
            split_loop isalpha f sql segs' line None (next sql s)
          end
        else (* 118-120 *)
          match start with
          | None => if isalpha x then split_loop isalpha f sql segs (lno s) (Some (idx s)) (next sql s)
                    else split_loop isalpha f sql segs line start (next sql s)
          | Some _ => split_loop isalpha f sql segs line start (next sql s)
          end
    end
  end.

(** [SqlParser(sql).split()]; line 85: lineno = 0, start_index = None; lines 22-24: index 0, lineno 1. *)
Definition split (isalpha : N -> bool) (sql : text) : out (list segment) :=
  split_loop isalpha (S (S (length sql))) sql [] 0%nat None (mkp 0 1).

(** ASCII stand-in for str.isalpha, used in examples only. *)
Definition ascii_alpha (c : N) : bool :=
  ((65 <=? c) && (c <=? 90) || (97 <=? c) && (c <=? 122))%N.

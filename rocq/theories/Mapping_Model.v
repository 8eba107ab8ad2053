(** Model of the users of SqlParser in prompt.py (check_complete) and compiler.py
    (parse_mapping, to_sql). *)
From Verif Require Import Base Parser_Model.

(** prompt.py:244-253.  [sp] is the whitespace test of str.strip.
    True means: the prompt keeps reading lines. *)
Definition check_complete (sp : N -> bool) (content : text) : bool :=
  let content := strip sp content in
  match content with
  | [] => false
  | c :: _ =>
    if text_eqb (firstn 4 content) (t "exit") then false
    else if in_chars c (t "!%") then false
    else match read_util_complete (S (length content)) content (mkp 0 1) with
         | Eof _ => true
         | _ => false
         end
  end.

(** compiler.py:2829-2836; [alnum c] is [c.isalpha() or c.isdigit() or c == "_"]. *)
Fixpoint allow_segment (alnum : N -> bool) (seg : text) : text :=
  match seg with
  | [] => []
  | c :: r => if alnum c then c :: allow_segment alnum r else []
  end.

(** compiler.py:2838-2852.  [uuid k] is the decimal text of the k-th uuid.uuid1().int drawn;
    [acc] is the concatenation of [segments] so far; result: text, mapping, uuids drawn.
    Simplification: [segments] is kept already joined. *)
Fixpoint pm_loop (alnum : N -> bool) (uuid : nat -> text) (fuel : nat) (sql : text)
         (drawn : nat) (mapping : list (text * text)) (acc : text) (last_end : nat) (s : pst)
  : option (text * list (text * text) * nat) :=
  match fuel with
  | 0%nat => None
  | S f =>
    match read_segment (S (length sql)) sql QB s with
    | Done s' (a, b, seg) =>
      let al := allow_segment alnum seg in
      if negb (text_eqb al seg) then
        let al' := al ++ [95%N] ++ uuid drawn in
        pm_loop alnum uuid f sql (S drawn) ((al', seg) :: mapping) (acc ++ slice sql last_end a ++ al') b s'
      else pm_loop alnum uuid f sql drawn mapping (acc ++ slice sql last_end a ++ seg) b s'
    | Eof _ => Some (acc ++ skipn last_end sql, mapping, drawn)
    | NoFuel => None
    end
  end.
(** compiler.py:2824-2852, with the compiler's mapping before the call. *)
Definition parse_mapping (alnum : N -> bool) (uuid : nat -> text) (mapping : list (text * text)) (sql : text) :=
  pm_loop alnum uuid (S (length sql)) sql 0 mapping [] 0 (mkp 0 1).

(** compiler.py:3211-3225 (the argument already is text). *)
Fixpoint ts_loop (fuel : nat) (mapping : list (text * text)) (sql : text) (acc : text) (last_end : nat) (s : pst)
  : option text :=
  match fuel with
  | 0%nat => None
  | S f =>
    match read_segment (S (length sql)) sql QB s with
    | Done s' (a, b, seg) =>
      let seg' := match assoc seg mapping with Some x => x | None => seg end in
      ts_loop f mapping sql (acc ++ slice sql last_end a ++ seg') b s'
    | Eof _ => Some (acc ++ skipn last_end sql)
    | NoFuel => None
    end
  end.
Definition to_sql (mapping : list (text * text)) (sql : text) : option text :=
  ts_loop (S (length sql)) mapping sql [] 0 (mkp 0 1).

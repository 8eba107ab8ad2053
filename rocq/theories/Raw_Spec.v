(** Specification of raw SQL blocks, independent of Raw_Model. A block stands in a statement where a table name may stand:
      /*raw(db.name) SQL endraw*/      or      /*raw(db.name)*/ ( SQL ) /*endraw*/
    It means: SQL is the view [name] of database [db], and the table is db.name. [sp]: white space, [word]: letters, digits, underscore. *)
From Verif Require Import Base Stmt_Spec.
Set Implicit Arguments.

Section Spec.
Variables sp word : N -> bool.
Definition blanks (w : text) : Prop := Forall (fun c => sp c = true) w.
(** A name db.view. *)
Definition part (x : text) : Prop := Forall (fun c => word c = true) x.
Record block := mkblock { b_text : text; b_db : text; b_view : text; b_sql : text }.
Definition b_name (b : block) : text := b_db b ++ t "." ++ b_view b.
(** Text in which no block begins, also not after a slash. *)
Definition quiet (s : text) : Prop := forall a w r, blanks w -> s <> a ++ t "*" ++ w ++ t "raw(" ++ r.
(** The SQL of a block. *)
Definition sql_ok (q : text) : Prop := trimmed sp q /\ quiet q /\ forall a b, q <> a ++ t "endraw" ++ b.
Inductive block_ok : block -> Prop :=
| bo_comment : forall w1 w2 w3 w4 d v q, blanks w1 -> blanks w2 -> blanks w3 -> blanks w4 -> part d -> part v -> sql_ok q ->
    (forall w r, blanks w -> q <> t "*/" ++ w ++ t "(" ++ r) -> (forall w r, blanks w -> q <> r ++ t ")" ++ w ++ t "/*") ->
    block_ok (mkblock (t "/*" ++ w1 ++ t "raw(" ++ (d ++ t "." ++ v) ++ t ")" ++ w2 ++ q ++ w3 ++ t "endraw" ++ w4 ++ t "*/") d v q)
| bo_parens : forall w1 w2 w3 w4 w5 w6 w7 w8 d v q, blanks w1 -> blanks w2 -> blanks w3 -> blanks w4 -> blanks w5 -> blanks w6 -> blanks w7 -> blanks w8 -> part d -> part v -> sql_ok q ->
    block_ok (mkblock (t "/*" ++ w1 ++ t "raw(" ++ (d ++ t "." ++ v) ++ t ")" ++ w2 ++ t "*/" ++ w3 ++ t "(" ++ w4 ++ q ++ w5 ++ t ")" ++ w6 ++ t "/*" ++ w7 ++ t "endraw" ++ w8 ++ t "*/") d v q).
(** A statement with blocks: a text, and after each block a text. *)
Definition written (f : block -> text) (first : text) (rest : list (block * text)) : text := first ++ concat (map (fun bl => f (fst bl) ++ snd bl) rest).
(** The statement that makes the SQL of a block a view. *)
Definition view_statement (b : block) : text :=
  t "set @config.databases." ++ b_db b ++ t ".virtual_views." ++ b_view b ++ t "='''" ++ [10%N] ++ b_sql b ++ [10%N] ++ t "'''".
End Spec.

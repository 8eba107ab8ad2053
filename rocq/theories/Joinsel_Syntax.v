(** A whole SELECT over joined tables: the joins and WHERE ([query] of Joins_Syntax), a select list of named operands,
    ORDER BY columns, LIMIT and OFFSET. *)
From Verif Require Import Base PyVal Joins_Syntax.

Record jselect := JSelect {
  j_query : query;
  j_items : list (text * operand);       (* SELECT operand AS name, ... *)
  j_order : list (col * bool);           (* ORDER BY column [DESC], ... *)
  j_limit : option Z;
  j_offset : option Z }.

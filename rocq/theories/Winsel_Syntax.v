(** A SELECT statement over one table with window functions, as the parser hands it over. *)
From Verif Require Import Base PyVal Expr_Syntax Winq_Syntax.

(** SELECT items FROM t WHERE .. HAVING .. WINDOW .. ORDER BY name [DESC], .. LIMIT .. OFFSET .. *)
Record wstatement := mkwstatement {
  ws_query : wquery;
  ws_where : option expr;
  ws_having : option expr;
  ws_order : list (text * bool);
  ws_limit : option Z;
  ws_offset : option Z }.

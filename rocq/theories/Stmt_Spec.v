(** Specification of statements other than queries, independent of Stmt_Model: which statements there are, what SET, SHOW, USE and EXPLAIN are
    to do. *)
From Verif Require Import Base Utils_Spec Stmt_Syntax.
Set Implicit Arguments.

(** The statements of the language. [lower]: the letters of a keyword may have any case. *)
Inductive understood (Q : Type) (lower : text -> text) : parsed Q -> Prop :=
| k_delete : forall q, understood lower (PDelete q)
| k_select : forall q, understood lower (PSelect q None)
| k_into : forall q x, understood lower (PSelect q (Some (ToVariable x)))
| k_union : forall q, understood lower (PUnion q false)
| k_insert : forall q, understood lower (PInsert q false)
| k_explain : forall k s, lower k = t "explain" -> understood lower (PCommand k (ArgConst s))
| k_set : forall k s, lower k = t "set" -> understood lower (PCommand k (ArgConst s))
| k_set_text : forall k s, lower k = t "set" -> understood lower (PCommand k (ArgText s))
| k_execute : forall k s, lower k = t "execute" -> understood lower (PCommand k (ArgConst s))
| k_show : forall k s, lower k = t "show" -> understood lower (PCommand k (ArgConst s))
| k_use : forall u, understood lower (PUse u)
| k_set_item : forall s, understood lower (PSet s).

(** A query or an insertion [q]. *)
Inductive query_of (Q : Type) : parsed Q -> Q -> Prop :=
| q_select : forall q, query_of (PSelect q None) q
| q_union : forall q, query_of (PUnion q false) q
| q_insert : forall q, query_of (PInsert q false) q.
(** The text of a SET statement. *)
Inductive sets (Q : Type) (lower : text -> text) : parsed Q -> text -> Prop :=
| s_item : forall s, sets lower (PSet s) s
| s_text : forall k s, lower k = t "set" -> sets lower (PCommand k (ArgText s)) s
| s_const : forall k s, lower k = t "set" -> sets lower (PCommand k (ArgConst s)) s.

(** What the value of a SET denotes, [sp] being white space. *)
Definition trimmed (sp : N -> bool) (s : text) : Prop := (forall c r, s = c :: r -> sp c = false) /\ (forall c r, s = r ++ [c] -> sp c = false).
Inductive set_denotes (sp : N -> bool) : text -> lit -> Prop :=
| sd_quoted : forall q s, (q = 39 \/ q = 34)%N -> ~ In q s -> trimmed sp s -> set_denotes sp (q :: s ++ [q]) (LText s)
| sd_block : forall q w1 s w2, (q = 39 \/ q = 34)%N -> trimmed sp s -> Forall (fun c => sp c = true) w1 -> Forall (fun c => sp c = true) w2 ->
    set_denotes sp ([q; q; q] ++ w1 ++ s ++ w2 ++ [q; q; q]) (LText s)
| sd_int : forall ds, digits ds -> set_denotes sp ds (LInt (decval ds))
| sd_negint : forall ds, digits ds -> set_denotes sp (45%N :: ds) (LInt (- decval ds))
| sd_true : forall s, spells s (t "true") -> set_denotes sp s (LBool true)
| sd_false : forall s, spells s (t "false") -> set_denotes sp s (LBool false)
| sd_null : forall s, spells s (t "null") -> set_denotes sp s LNull
| sd_dec : forall ip fp, digits ip -> digits fp -> set_denotes sp (ip ++ 46%N :: fp) (LDec (decval (ip ++ fp)) (length fp)).
(** It begins like a text literal. *)
Definition starts_quoted (s : text) : Prop := exists q r, s = q :: r /\ (q = 39 \/ q = 34)%N.

(** An ordinary variable @name or @name.rest: the name is not that of a section of the configuration and does not begin with config. *)
Definition reserved : list text := [t "databases"; t "imports"; t "sources"; t "defines"; t "variables"; t "options"; t "caches"; t "virtual_views"].
Definition ordinary (x : text) : Prop :=
  exists name, (x = t "@" ++ name \/ exists rest, x = t "@" ++ name ++ t "." ++ rest) /\ ~ In 46%N name /\ ~ In name reserved /\ firstn 6 name <> t "config".

(** After an assignment of [v] to [x], every variable reads as before except [x]. *)
Definition assigned {V} (x : text) (v : V) (before after : list (text * V)) : Prop :=
  forall y, assoc y after = if text_eqb y x then Some v else assoc y before.

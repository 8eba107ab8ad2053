(** Model of the columns of joined tables: compiler.py:651-715 (compile_select_column, compile_select_calculate_column), 717-734
    compile_join_column_tables, 736-802 compile_join_column, 804-808 compile_join_column_field, 1984-1996 compile_column ("$" * scope_depth).

    A column of a joined table is compiled to a join nested around the value: [keys, table, having, value], and the value may itself
    be such a join. A reference is "$" repeated (scope_depth) times, a dot, and the name of the column.

    Simplifications. An expression is an [operand] of Joins_Syntax: the columns it reads and what it computes of them. Type conversions
    ("|int") and jit defines (738-740) are left out. "primary_keys" and "calculate_expressions" are the two sides of [o_keys]. The order in
    which Python walks a set, and the sort of the names by "ref_count" (728-730), are an arbitrary function [ord] that permutes the names.
    What the package does with a nested join is not in /repo; [eval] reads it so: the keys are computed with "$" the row in front of the
    join, having and value with "$" the joined row and "$$" the row in front of it, and so on outwards; a reference without "$" reads
    nothing; when no row matches, the value is computed once with a missing row. *)
From Verif Require Import Base PyVal Joins_Syntax Joins_Model.
Open Scope nat_scope.

Record jtable := JTab { n_name : text; n_plan : on_plan }.

(** The columns that 2085-2260 parse_on_condition finds in a filter: in a comparison whose left side is not a column only those of
    the left side (2151-2156), otherwise all of them (2251-2259). *)
Definition filter_fields (a : atom) : list col :=
  match a with
  | ACmp _ l r => match col_of l with Some _ => ocolumns l ++ ocolumns r | None => ocolumns l end
  | AIn l _ => ocolumns l
  | AOther cols _ => cols
  end.
(** "join_columns": the columns of the keys (2124-2149), and those of the filters that are not of the table itself (2157-2159). *)
Definition join_columns (T : text) (pl : on_plan) : list col :=
  flat_map (fun k => ocolumns (snd k)) (o_keys pl) ++
  filter (fun c => negb (is_tab T c)) (flat_map filter_fields (o_having pl)).

(** The joined tables among the columns [cs]: table_name is set and is not the primary table [p]. *)
Definition other_tables (p : text) (cs : list col) : list text :=
  flat_map (fun c => match ctab c with Some tb => if text_eqb tb p then [] else [tb] | None => [] end) cs.

Section Tables.
Variable p : text.
Variable ord : list text -> list text.
Variable tabs : list jtable.                 (* join_tables *)

Fixpoint find_table (n : text) (l : list jtable) : option jtable :=
  match l with [] => None | x :: r => if text_eqb n (n_name x) then Some x else find_table n r end.
Fixpoint find_tables (x : exn) (ns : list text) : res (list jtable) :=
  match ns with
  | [] => Ok []
  | n :: r => match find_table n tabs with
              | None => Err x
              | Some y => match find_tables x r with Err z => Err z | Ok ys => Ok (y :: ys) end
              end
  end.
Definition named_in (l : list jtable) (x : jtable) : bool := existsb (fun y => text_eqb (n_name x) (n_name y)) l.

(** 717-734. [None]: the recursion does not end. *)
Fixpoint column_tables (fuel : nat) (cur acc : list jtable) : option (res (list jtable)) :=
  match fuel with
  | O => None
  | S f =>
    match cur with
    | [] => Some (Ok acc)
    | _ =>
      let acc' := filter (fun x => negb (named_in cur x)) acc ++ cur in
      match find_tables KeyError (ord (flat_map (fun x => other_tables p (join_columns (n_name x) (n_plan x))) cur)) with
      | Err e => Some (Err e)
      | Ok next => column_tables f next acc'
      end
    end
  end.

(** A compiled expression, filter and column. *)
Inductive cop := Ref (depth : nat) (name : text) | CExpr (refs : list (nat * text)) (f : list val -> val).
Inductive catom :=
| CACmp (o : cmp) (l r : cop)
| CAIn (l : cop) (f : val -> bool)
| CAOther (refs : list (nat * text)) (f : list val -> bool).
Inductive chaving := HTest (a : catom) | HIf (a : catom) (h : chaving).      (* ["#if", a, h, ["#const", 0]] *)
Inductive ccol :=
| CVal (o : cop)
| CJoin (keys : list (text * cop)) (table : text) (querys : list (text * (val -> bool))) (having : option chaving) (value : ccol).

(** 804-808, with "$" * n = "" when n is negative; [ci] is join_index. *)
Fixpoint index_of_table (n : text) (l : list jtable) : option nat :=
  match l with
  | [] => None
  | x :: r => if text_eqb n (n_name x) then Some 0 else match index_of_table n r with None => None | Some i => Some (S i) end
  end.
Definition field (l : list jtable) (ci : Z) (c : col) : res (nat * text) :=
  match ctab c with
  | None => Ok (Z.to_nat (Z.of_nat (length l) - ci), cname c)
  | Some tb =>
    if text_eqb tb p then Ok (Z.to_nat (Z.of_nat (length l) - ci), cname c)
    else match index_of_table tb l with
         | None => Err IndexError
         | Some j => Ok (Z.to_nat (Z.of_nat j - ci), cname c)
         end
  end.
Fixpoint fields (l : list jtable) (ci : Z) (cs : list col) : res (list (nat * text)) :=
  match cs with
  | [] => Ok []
  | c :: r => match field l ci c with
              | Err e => Err e
              | Ok x => match fields l ci r with Err e => Err e | Ok xs => Ok (x :: xs) end
              end
  end.

(** 1531-1812 compile_calculate, the references only. *)
Definition comp_op (l : list jtable) (ci : Z) (o : operand) : res cop :=
  match o with
  | OCol c => match field l ci c with Err e => Err e | Ok (n, x) => Ok (Ref n x) end
  | OExpr cs f => match fields l ci cs with Err e => Err e | Ok rs => Ok (CExpr rs f) end
  end.
Definition comp_atom (l : list jtable) (ci : Z) (a : atom) : res catom :=
  match a with
  | ACmp o x y => match comp_op l ci x with
                  | Err e => Err e
                  | Ok x' => match comp_op l ci y with Err e => Err e | Ok y' => Ok (CACmp o x' y') end
                  end
  | AIn x f => match comp_op l ci x with Err e => Err e | Ok x' => Ok (CAIn x' f) end
  | AOther cs f => match fields l ci cs with Err e => Err e | Ok rs => Ok (CAOther rs f) end
  end.
Fixpoint comp_keys (l : list jtable) (ci : Z) (ks : list (text * operand)) : res (list (text * cop)) :=
  match ks with
  | [] => Ok []
  | (n, o) :: r => match comp_op l ci o with
                   | Err e => Err e
                   | Ok o' => match comp_keys l ci r with Err e => Err e | Ok xs => Ok ((n, o') :: xs) end
                   end
  end.
(** 775-793 *)
Fixpoint comp_having (l : list jtable) (ci : Z) (a : atom) (r : list atom) : res chaving :=
  match comp_atom l ci a with
  | Err e => Err e
  | Ok a' => match r with
             | [] => Ok (HTest a')
             | b :: r' => match comp_having l ci b r' with Err e => Err e | Ok h => Ok (HIf a' h) end
             end
  end.
(** 752-797: one step of the loop. *)
Definition wrap (l : list jtable) (i : nat) (x : jtable) (column : ccol) : res ccol :=
  match comp_keys l (Z.of_nat i) (o_keys (n_plan x)) with
  | Err e => Err e
  | Ok ks =>
    match o_having (n_plan x) with
    | [] => Ok (CJoin ks (n_name x) (o_query (n_plan x)) None column)
    | a :: r => match comp_having l (Z.of_nat i - 1) a r with
                | Err e => Err e
                | Ok h => Ok (CJoin ks (n_name x) (o_query (n_plan x)) (Some h) column)
                end
    end
  end.
Fixpoint wraps (l : list jtable) (i : nat) (rest : list jtable) (column : ccol) : res ccol :=
  match rest with
  | [] => Ok column
  | x :: r => match wrap l i x column with Err e => Err e | Ok c => wraps l (S i) r c end
  end.

(** 686-705 (and 657-665 for a column alone). *)
Definition compile_value (fuel : nat) (e : operand) : option (res ccol) :=
  match find_tables CompileError (ord (other_tables p (ocolumns e))) with
  | Err x => Some (Err x)
  | Ok cur =>
    match column_tables fuel cur [] with
    | None => None
    | Some (Err x) => Some (Err x)
    | Some (Ok l) =>
      match comp_op l (-1)%Z e with
      | Err x => Some (Err x)
      | Ok o => Some (wraps l 0 l (CVal o))
      end
    end
  end.
End Tables.

(** 2003-2077 parse_joins: the joined tables with their ON conditions. *)
Fixpoint join_tables (cmpv : cmp -> val -> val -> bool) (js : list join) : res (list jtable) :=
  match js with
  | [] => Ok []
  | j :: r => match parse_on cmpv (jtab j) (Plan [] [] []) (jon j) with
              | Err x => Err x
              | Ok pl => match join_tables cmpv r with Err x => Err x | Ok ts => Ok (JTab (jtab j) pl :: ts) end
              end
  end.
Definition compile_column_of (cmpv : cmp -> val -> val -> bool) (p : text) (ord : list text -> list text) (js : list join)
    (fuel : nat) (e : operand) : option (res ccol) :=
  match join_tables cmpv js with Err x => Some (Err x) | Ok tabs => compile_value p ord tabs fuel e end.

(** The package's reading of a compiled column, as said above. *)
Section Eval.
Variable cmpv : cmp -> val -> val -> bool.
Variable d : db.
Definition stack := list (option row).

Definition look (s : stack) (r : nat * text) : val :=
  match fst r with
  | O => VNone
  | S k => match nth k s None with
           | Some x => match assoc (snd r) x with Some v => v | None => VNone end
           | None => VNone
           end
  end.
Definition eval_op (s : stack) (o : cop) : val :=
  match o with Ref n x => look s (n, x) | CExpr rs f => f (map (look s) rs) end.
Definition eval_atom (s : stack) (a : catom) : bool :=
  match a with
  | CACmp o l r => cmpv o (eval_op s l) (eval_op s r)
  | CAIn l f => f (eval_op s l)
  | CAOther rs f => f (map (look s) rs)
  end.
Fixpoint eval_having (s : stack) (h : chaving) : bool :=
  match h with HTest a => eval_atom s a | HIf a h' => if eval_atom s a then eval_having s h' else false end.
Fixpoint eval (s : stack) (c : ccol) : list val :=
  match c with
  | CVal o => [eval_op s o]
  | CJoin ks T qs h v =>
    let get (r : row) n := match assoc n r with Some v => v | None => VNone end in
    match filter (fun r => forallb (fun k => cmpv CEq (get r (fst k)) (eval_op s (snd k))) ks &&
                           forallb (fun k => snd k (get r (fst k))) qs &&
                           match h with None => true | Some h => eval_having (Some r :: s) h end) (d T) with
    | [] => eval (None :: s) v
    | rs => flat_map (fun r => eval (Some r :: s) v) rs
    end
  end.
End Eval.

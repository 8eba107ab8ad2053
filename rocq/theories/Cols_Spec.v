(** Specification of the columns of a result, independent of the compiler. *)
From Verif Require Import Base Cols_Syntax.

Set Implicit Arguments.

Section Spec.
Variable E : Type.
Variable sql : E -> text.                            (* the SQL text of an expression *)
Variable uses : E -> list (option text * text).      (* the columns an expression reads *)
Variable ident : text -> bool.                       (* is the text a plain identifier *)

(** A member of a document column goes by its path with _ for the dots. *)
Definition flat (n : text) : text := map (fun c => if N.eqb c 46 then 95%N else c) n.
(** The name the table of FROM goes by. *)
Definition primary (f : from) : text := match f_alias f with Some a => a | None => f_origin f end.
(** The table a qualifier names; None: no such table. *)
Definition owner (f : from) (q : option text) : option text :=
  match q with
  | None => Some (primary f)
  | Some x => if text_eqb x (primary f) then Some x else match assoc x (f_joins f) with Some _ => Some x | None => None end
  end.
Definition owned (f : from) (q : option text) : bool := match owner f q with Some _ => true | None => false end.
(** The columns behind q.*, when they are known. *)
Definition behind (f : from) (q : text) : option (list text) :=
  if text_eqb q (primary f) then f_cols f else match assoc q (f_joins f) with Some c => c | None => None end.
Definition mem (n : text) (l : list text) : bool := existsb (text_eqb n) l.
Definition of_from (f : from) (q : option text) : bool := match q with None => true | Some x => text_eqb x (primary f) end.

(** One column asked for: by an item of its own or by a star; [e_marked]: it is marked as key; [e_candidate]: it can serve as
    key when no column is marked. *)
Record entry := { e_explicit : bool; e_name : text; e_source : source E; e_origin : text; e_marked : bool; e_candidate : bool }.

(** The columns behind a star come under their own names. *)
Definition star_entries (f : from) (seen : list text) (q : text) : option (list entry) :=
  option_map (map (fun n => {| e_explicit := false; e_name := n; e_source := SCol q n; e_origin := n; e_marked := false;
                               e_candidate := negb (mem n seen) && ident n && of_from f (Some q) |}))
             (behind f q).

(** The columns an item asks for, after columns with the names [seen]: a column goes by its alias, or else its own name, or else, when
    that is taken and it is written with its table, table.name; an expression goes by its alias or its SQL text. *)
Definition asked (f : from) (seen : list text) (it : item E) : option (list entry) :=
  match it with
  | IAll => star_entries f seen (primary f)
  | IAllOf q => star_entries f seen q
  | ICol alias q n marked =>
    let name := match alias, q with
                | Some a, _ => a
                | None, Some x => if mem (flat n) seen then x ++ [46%N] ++ flat n else flat n
                | None, None => flat n
                end in
    option_map (fun o => [{| e_explicit := true; e_name := name; e_source := SCol o n; e_origin := n;
                             e_marked := marked && ident n && ident name;
                             e_candidate := ident n && ident name && of_from f q |}]) (owner f q)
  | IExp alias k e =>
    let name := match alias with Some a => a | None => sql e end in
    if (match k with KConst => true | _ => forallb (fun u => owned f (fst u)) (uses e) end)
    then Some [{| e_explicit := true; e_name := name; e_source := SExp e; e_origin := []; e_marked := false;
                  e_candidate := match k with KCalc => ident name | _ => false end |}]
    else None
  end.

Fixpoint asked_all (f : from) (seen : list text) (its : list (item E)) : option (list entry) :=
  match its with
  | [] => Some []
  | it :: r =>
    match asked f seen it with
    | None => None
    | Some es => option_map (app es) (asked_all f (seen ++ map e_name es) r)
    end
  end.

(** Each name once, where it first occurs. *)
Fixpoint distinct (l : list text) : list text :=
  match l with
  | [] => []
  | n :: r => n :: filter (fun m => negb (text_eqb n m)) (distinct r)
  end.

Definition named (n : text) (e : entry) : bool := text_eqb n (e_name e).
(** Among the columns asked for under one name the last item of its own wins, without such an item the first star. *)
Definition winner (n : text) (l : list entry) : option (source E) :=
  match rev (filter (fun e => named n e && e_explicit e) l), filter (named n) l with
  | e :: _, _ => Some (e_source e)
  | [], e :: _ => Some (e_source e)
  | [], [] => None
  end.

(** The key of the result: the marked columns; or else the first candidate; or else, in a query without FROM, the first column with
    a plain name; or else id. *)
Definition output_key (from_given : bool) (l : list entry) : list text :=
  match filter e_marked l, filter e_candidate l with
  | (_ :: _) as m, _ => map e_name m
  | [], e :: _ => [e_name e]
  | [], [] =>
    match from_given, filter ident (distinct (map e_name l)) with
    | false, n :: _ => [n]
    | _, _ => [t "id"]
    end
  end.

(** Every subquery has an alias, and its columns have different names. *)
Definition proper (f : from) : Prop :=
  (f_cols f <> None -> f_alias f <> None) /\
  (forall c, f_cols f = Some c -> NoDup c) /\ (forall q c, assoc q (f_joins f) = Some (Some c) -> NoDup c) /\
  (forall x, assoc x (f_joins f) <> None -> x <> primary f).
End Spec.

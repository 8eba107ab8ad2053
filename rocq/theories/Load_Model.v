(** Model of loading the configuration: syncanysql/config.py:130-213 GlobalConfig.load and load_config.

    Simplifications: time zone, sys.path and logging are not modelled; the dicts read from two files, or twice from one, share nothing; the
    random prefix of redis tables is an argument; file names in "executes" and "extends" are texts (anything else raises here). *)
From Verif Require Import Base Agg_Model Config_Model.

Section Load.
Variable default : conf.              (* CoreTasker.DEFAULT_CONFIG *)
Variable content : text -> option conf. (* syncany.taskers.config.load_config: the parsed file; None when it raises *)
Variable there : text -> bool.        (* os.path.exists *)
Variable join_home : text -> text.    (* os.path.join(home_config_path, name) *)
Variable prefix : cval.               (* config.py:168 *)

Definition t_ext := t "extends".
(** config.py:201-203 *)
Definition drop_falsy (c : conf) : conf := filter (fun e => negb (mem (fst e) (map fst default) && negb (truthy (snd e)))) c.
(** config.py:198-213 load_config; [name] is None for the configuration itself.  None: the recursion does not end within [fuel] calls. *)
Fixpoint load_config (fuel : nat) (name : option text) (c : conf) : option (res conf) :=
  match fuel with
  | O => None
  | S fuel =>
    match (match name with None => Ok (drop_falsy c, default) | Some n => match content n with Some f => Ok (f, c) | None => Err OtherError end end) with
    | Err e => Some (Err e)
    | Ok (f, c) =>
      match (fix all (l : list cval) (c : conf) : option (res conf) :=
        match l with
        | [] => Some (Ok c)
        | v :: r =>
          match (match v with CStr n => load_config fuel (Some n) c | CNull => load_config fuel None c | _ => Some (Err TypeError) end) with
          | Some (Ok c') => all r c'
          | x => x
          end
        end) (match assoc t_ext f with None => [] | Some (CList l) => l | Some v => [v] end) c with
      | Some (Ok c') => Some (merge_config c' (dict_del t_ext f))
      | x => x
      end
    end
  end.

(** config.py:134-141: the configuration files of the home and of the working directory.  They are the elements of a Python set: [order] is the
    order in which the set is iterated. *)
Definition with_files (order : list text) (c : conf) : conf :=
  fold_left (fun c n =>
    if there n then
      let l := match assoc t_ext c with Some (CList l) => l | _ => [] end in
      dict_set t_ext (CList (if existsb (fun v => match v with CStr m => text_eqb m n | _ => false end) l then l else l ++ [CStr n])) c
    else c) order c.

(** config.py:158-169: the two databases every session has. *)
Definition add_fields (w d : conf) : conf := fold_left (fun d e => if mem (fst e) (map fst d) then d else dict_set (fst e) (snd e) d) w d.
Definition redis_fields : conf :=
  [(t "prefix", prefix); (t "serialize", CStr (t "pickle")); (t "ignore_serialize_error", COther 1); (t "expire_seconds", COther 900)].
Definition driver_of (e : cval) : res cval := match e with CDict d => match assoc (t "driver") d with Some v => Ok v | None => Err KeyError end | _ => Err TypeError end.
Fixpoint names_of (l : list cval) : res (list text) :=
  match l with
  | [] => Ok []
  | CDict d :: r => match assoc t_name d with Some (CStr n) => do ns <- names_of r; Ok (n :: ns) | Some _ => Err TypeError | None => Err KeyError end
  | _ :: _ => Err TypeError
  end.
Definition is_text (s : text) (v : cval) : bool := match v with CStr x => text_eqb x s | _ => false end.
Fixpoint redis_defaults (l : list cval) : res (list cval) :=
  match l with
  | [] => Ok []
  | e :: r => do b <- named (t "--") e;
              if b then do v <- driver_of e; Ok ((if is_text (t "redis") v then match e with CDict d => CDict (add_fields redis_fields d) | _ => e end else e) :: r)
              else do r' <- redis_defaults r; Ok (e :: r')
  end.
Definition add_standard (l : list cval) : res (list cval) :=
  do ns <- names_of l;
  let l1 := if mem (t "-") ns then l else l ++ [CDict [(t "name", CStr (t "-")); (t "driver", CStr (t "textline"))]] in
  if mem (t "--") ns then redis_defaults l1 else Ok (l1 ++ [CDict [(t "name", CStr (t "--")); (t "driver", CStr (t "memory"))]]).
(** config.py:171-186 *)
Definition formats := [t "encoding"; t "datetime_format"; t "date_format"; t "time_format"].
Definition with_formats (c d : conf) : conf :=
  fold_left (fun d k => match assoc k c with Some v => if truthy v then dict_set k v d else d | None => d end) formats d.
Fixpoint set_formats (c : conf) (l : list cval) : res (list cval) :=
  match l with
  | [] => Ok []
  | e :: r =>
    do v <- driver_of e;
    let e' := if existsb (fun x => is_text x v) [t "textline"; t "json"; t "csv"] then match e with CDict d => CDict (with_formats c d) | _ => e end else e in
    do r' <- set_formats c r; Ok (e' :: r')
  end.
Definition set_databases (c : conf) : res conf :=
  do l <- match assoc (t "databases") c with None => Ok [] | Some (CList l) => Ok l | Some _ => Err TypeError end;
  do l <- add_standard l; do l <- set_formats c l; Ok (dict_set (t "databases") (CList l) c).

(** config.py:188-196 *)
Fixpoint find_files (l : list cval) : res (list text) :=
  match l with
  | [] => Ok []
  | CStr n :: r => do m <- (if there n then Ok n else if there (join_home n) then Ok (join_home n) else Err OtherError);
                   do ms <- find_files r; Ok (m :: ms)
  | _ :: _ => Err TypeError
  end.
(** config.py:130-196 load: the configuration and the initial files. *)
Definition load (fuel : nat) (order : list text) (custom : option conf) (c : conf) : option (res (conf * list text)) :=
  match load_config fuel None (with_files order c) with
  | None => None
  | Some r =>
    Some (do c <- r;
          do c <- match custom with None => Ok c | Some cu => merge_config c cu end;
          do c <- set_databases c;
          do fs <- match assoc (t "executes") c with None => Ok [] | Some (CList l) => find_files l | Some _ => Err TypeError end;
          Ok (dict_del (t "executes") c, fs))
  end.
End Load.

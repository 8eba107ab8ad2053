(** Model of syncanysql/config.py: GlobalConfig.set, merge_config, SessionConfig.get/set, and of the routing of
    SET @... in syncanysql/taskers/set.py:9-47.

    Configurations are nested dicts and lists. Simplification: a merge that raises leaves the cache unset here, while the
    code keeps the part merged so far; when an update raises, the update's partial effect on the
    configuration is not modelled. *)
From Verif Require Import Base Agg_Model Utils_Model.

Inductive cval := CNull | CStr (s : text) | COther (n : Z) | CDict (d : list (text * cval)) | CList (l : list cval).
Definition conf := list (text * cval).
Definition dict_del {A} (k : text) (d : list (text * A)) : list (text * A) := filter (fun e => negb (text_eqb k (fst e))) d.
Definition is_null (v : cval) : bool := match v with CNull => true | _ => false end.

Section Config.
(** json.loads of a text; None when it raises. *)
Variable json : text -> option cval.
(** config.py:117-128 parse_virtual_view_args: the query with its #{...} replaced and the argument list. *)
Variable parse_view : text -> text * cval.
(** CoreTasker.DEFAULT_CONFIG of the syncany library. *)
Variable default : conf.

(** json.loads(value): TypeError when the value is not a text. *)
Definition loads (v : cval) : option cval := match v with CStr s => json s | _ => None end.

Definition t_name := t "name".
(** [database["name"] == n] for an element of the list *)
Definition named (n : text) (e : cval) : res bool :=
  match e with
  | CDict d => match assoc t_name d with
               | Some (CStr s) => Ok (text_eqb s n)
               | Some _ => Ok false
               | None => Err KeyError
               end
  | _ => Err TypeError
  end.
(** Replace the first element named [n] by [f] of it (remove it when [f] gives None); when there is none, append
    [f fresh]. *)
Fixpoint update_named (n : text) (fresh : conf) (f : conf -> res (option conf)) (l : list cval) : res (list cval) :=
  match l with
  | [] => do o <- f fresh; Ok (match o with Some d => [CDict d] | None => [] end)
  | e :: r => do b <- named n e;
              if b then match e with
                        | CDict d => do o <- f d; Ok (match o with Some d => CDict d :: r | None => r end)
                        | _ => Err TypeError
                        end
              else do r' <- update_named n fresh f r; Ok (e :: r')
  end.
(** d.update(v) *)
Definition dict_update (d v : conf) : conf := fold_left (fun d e => dict_set (fst e) (snd e) d) v d.

(** config.py:58-89: what happens to one virtual view. *)
Definition set_view (rest : list text) (value : cval) (view : conf) : res (option conf) :=
  match rest with
  | f :: _ => Ok (Some (if is_null value then dict_del f view
                        else dict_set f (match loads value with Some w => w | None => value end) view))
  | [] => match value with
          | CNull => Ok None
          | CStr q => let (query, args) := parse_view q in
                      Ok (Some (dict_set (t "args") args (dict_set (t "query") (CStr query) view)))
          | _ => Err TypeError
          end
  end.
(** config.py:54-97: what happens to one database. [key] is what follows databases.<name>. *)
Definition set_database (n : text) (key : list text) (value : cval) (db : conf) : res (option conf) :=
  match key with
  | [] => if is_null value then Ok None
          else (* clear(); ["name"] = ...; update(json.loads(value)) inside try/except *)
               Ok (Some (match loads value with Some (CDict w) => dict_update [(t_name, CStr n)] w | _ => [(t_name, CStr n)] end))
  | f :: rest =>
    if text_eqb f (t "virtual_views") then
      do views <- match assoc f db with None => Ok [] | Some (CList l) => Ok l | Some _ => Err TypeError end;
      match rest with
      | [] => Err IndexError
      | v :: rest => do l <- update_named v [(t_name, CStr v); (t "query", CStr []); (t "args", CList [])] (set_view rest value) views;
                     Ok (Some (dict_set f (CList l) db))
      end
    else if is_null value then Ok (Some (dict_del f db))
    else Ok (Some (match loads value with Some w => dict_set f w db | None => db end))
  end.
Definition literal_sections := [t "imports"; t "sources"].
Definition json_sections := [t "defines"; t "variables"; t "options"; t "caches"].
Definition mem (k : text) (l : list text) : bool := existsb (text_eqb k) l.
(** config.py:33-115 set. *)
Definition set (key : list text) (value : cval) (c : conf) : res conf :=
  match key with
  | [] => Ok c
  | [k] => Ok (if is_null value then dict_del k c else dict_set k value c)
  | k :: n :: rest =>
    if text_eqb k (t "databases") then
      match assoc k c with
      | Some (CList l) => do l' <- update_named n [(t_name, CStr n)] (set_database n rest value) l; Ok (dict_set k (CList l') c)
      | Some _ => Err TypeError
      | None => Err KeyError
      end
    else if mem k literal_sections || mem k json_sections then
      match assoc k c with
      | None => Ok (dict_set k (CDict (if is_null value then [] else [(n, if mem k json_sections then match loads value with Some w => w | None => value end else value)])) c)
      | Some (CDict d) =>
        Ok (dict_set k (CDict (if is_null value then dict_del n d
                               else dict_set n (if mem k json_sections then match loads value with Some w => w | None => value end else value) d)) c)
      | Some _ => Err TypeError
      end
    else Ok c
  end.

(** config.py:221-259 merge_config. *)
Definition merge_sections := [t "arguments"; t "imports"; t "defines"; t "variables"; t "sources"; t "logger"; t "options"].
Definition name_of (e : cval) : option cval := match e with CDict d => assoc t_name d | _ => None end.
(** vs = {c["name"]: c for c in self.config[k]}; update the named ones in place, append the others. A later element of
    the same name wins the place in vs. Only elements that are dicts with a text name are modelled. *)
Fixpoint update_last (n : text) (w : conf) (l : list cval) : option (list cval) :=
  match l with
  | [] => None
  | e :: r => match update_last n w r with
              | Some r' => Some (e :: r')
              | None => match named n e with
                        | Ok true => match e with CDict d => Some (CDict (dict_update d w) :: r) | _ => None end
                        | _ => None
                        end
              end
  end.
(** [base]: the elements present before the loop are those that can be found in vs. *)
Fixpoint merge_named (v : list cval) (base added : list cval) : res (list cval) :=
  match v with
  | [] => Ok (base ++ added)
  | CDict w :: r => match assoc t_name w with
                    | Some (CStr n) => match update_last n w base with
                                       | Some base' => merge_named r base' added
                                       | None => merge_named r base (added ++ [CDict w])
                                       end
                    | _ => Err KeyError
                    end
  | _ :: _ => Err TypeError
  end.
(** v if isinstance(v, list) and not isinstance(v[0], str) else [v] (pipelines; an empty list has no v[0]: IndexError). *)
Definition as_pipelines (v : cval) : res (list cval) :=
  match v with
  | CList [] => Err IndexError
  | CList (CStr _ :: _) => Ok [v]
  | CList l => Ok l
  | _ => Ok [v]
  end.
Definition truthy (v : cval) : bool :=
  match v with CNull | CStr [] | COther 0 | CDict [] | CList [] => false | _ => true end.
Definition merge_key (c : conf) (k : text) (v : cval) : res conf :=
  if mem k merge_sections then
    match v, assoc k c with
    | CDict _, None => Ok (dict_set k v c)
    | CDict w, Some (CDict d) => Ok (dict_set k (CDict (dict_update d w)) c)
    | _, _ => Ok c
    end
  else if mem k [t "databases"; t "caches"] then
    match v, assoc k c with
    | CList _, None => Ok (dict_set k v c)
    | CList w, Some (CList l) => do l' <- merge_named w l []; Ok (dict_set k (CList l') c)
    | _, _ => Ok c
    end
  else if text_eqb k (t "pipelines") then
    match assoc k c with
    | None => Err KeyError
    | Some old => do a <- (if truthy old then as_pipelines old else Ok []);
                  do b <- (if truthy v then as_pipelines v else Ok []);
                  Ok (dict_set k (CList (a ++ b)) c)
    end
  else if mem k [t "states"; t "executes"] then
    let w := match v with CList l => l | _ => [v] end in
    match assoc k c with
    | Some (CList (x :: l)) => Ok (dict_set k (CList ((x :: l) ++ w)) c)
    | _ => Ok (dict_set k (CList w) c)
    end
  else Ok (dict_set k v c).
Fixpoint merge_config (c : conf) (v : conf) : res conf :=
  match v with
  | [] => Ok c
  | (k, x) :: r => do c' <- merge_key c k x; merge_config c' r
  end.

(** ** Sessions. Configurations form a tree: number 0 is the global one; the parent of a session is older. *)
Record node := mknode { own : conf; parent : nat; cache : option conf }.   (* parent is ignored for the global config *)
Definition tree := list node.
Fixpoint set_nth {A} (l : list A) (i : nat) (x : A) : list A :=
  match l, i with [], _ => [] | _ :: r, O => x :: r | y :: r, S i => y :: set_nth r i x end.
(** config.py:284-291 SessionConfig.__init__ (the own config starts as the defaults). *)
Definition session (tr : tree) (p : nat) : tree := tr ++ [mknode default p None].
(** config.py:31-32 get / 293-302 SessionConfig.get: merges defaults, the parent's get() and the own settings, once. *)
Fixpoint get (fuel : nat) (tr : tree) (i : nat) : tree * res conf :=
  match fuel with
  | O => (tr, Err KeyError)   (* not reached: parents are older *)
  | S fuel =>
    match nth_error tr i with
    | None => (tr, Err KeyError)
    | Some nd =>
      match i with
      | O => (tr, Ok (own nd))
      | S _ =>
        match cache nd with
        | Some c => (tr, Ok c)
        | None =>
          match get fuel tr (parent nd) with
          | (tr', Err e) => (tr', Err e)
          | (tr', Ok pc) =>
            match (do c1 <- merge_config default pc; merge_config c1 (own nd)) with
            | Ok c => (set_nth tr' i (mknode (own nd) (parent nd) (Some c)), Ok c)
            | Err e => (tr', Err e)
            end
          end
        end
      end
    end
  end.
(** config.py:304-307 SessionConfig.set: the own config changes and the own cache is dropped. *)
Definition set_in (tr : tree) (i : nat) (key : list text) (value : cval) : res tree :=
  match nth_error tr i with
  | None => Err KeyError
  | Some nd => do c <- set key value (own nd); Ok (set_nth tr i (mknode c (parent nd) None))
  end.

(** A history of reads, writes and new sessions. A write that raises changes nothing here. *)
Inductive cop := ORead (i : nat) | OSet (i : nat) (key : list text) (value : cval) | OSession (p : nat).
Definition step (tr : tree) (o : cop) : tree :=
  match o with
  | ORead i => fst (get (S i) tr i)
  | OSet i k v => match set_in tr i k v with Ok tr' => tr' | Err _ => tr end
  | OSession p => if (p <? length tr)%nat then session tr p else tr
  end.
Definition run (tr : tree) (h : list cop) : tree := fold_left step h tr.
(** What reading configuration [i] gives. *)
Definition read_config (tr : tree) (i : nat) : res conf := snd (get (S i) tr i).
(** The program starts with the global configuration alone. *)
Definition start (c : conf) : tree := [mknode c 0 None].

(** ** SET: taskers/set.py:9-47. *)
Inductive target := TConf (key : text) | TVar (key : text).
(** key[:n].lower() == s, ASCII only. *)
Definition lower1 (c : N) : N := if ((65 <=? c) && (c <=? 90))%N then (c + 32)%N else c.
(** The white space that str.strip removes (ASCII only). *)
Definition blank (c : N) : bool := existsb (N.eqb c) [32; 9; 10; 11; 12; 13]%N.
(** taskers/set.py:10-20: which configuration key or variable a SET statement addresses, and whether it is global. *)
Definition set_target (key : text) : bool * target :=
  let glob := text_eqb (map lower1 (firstn 6 key)) (t "global") in
  let key := if glob then strip blank (skipn 6 key) else key in
  let name := skipn 1 (hd [] (split_on 46 key)) in
  (glob, if mem name [t "databases"; t "imports"; t "sources"; t "defines"; t "variables"; t "options"; t "caches"] then TConf (skipn 1 key)
         else if text_eqb name (t "virtual_views") then TConf (t "databases." ++ skipn 1 key)
         else if text_eqb (firstn 7 key) (t "@config") then TConf (strip blank (skipn 8 key))
         else TVar key).
(** taskers/set.py:33-38 set_config. A SessionConfig has no merge(): after a global SET the AttributeError
    escapes, with the global configuration already changed. The session is number [i]. *)
Definition set_config (tr : tree) (i : nat) (key : text) (value : cval) (glob : bool) : tree * res unit :=
  if glob then match set_in tr 0 (split_on 46 key) value with Ok tr' => (tr', Err AttributeError) | Err e => (tr, Err e) end
  else match set_in tr i (split_on 46 key) value with Ok tr' => (tr', Ok tt) | Err e => (tr, Err e) end.
End Config.

(** Model of executor.py:21 RAW_SQL_RE and 144-156 Executor.run: raw SQL blocks in a statement, and the statements of a script submitted one
    after the other. Interpolation of variables (executor.py:148) is Interp_Model; here the text is what it gives.
    The regular expression is matched as re does: [\s] and [\w] are parameters; its optional groups and lazy parts can be tried in one order only,
    because what may follow them begins with other characters. *)
From Verif Require Import Base PyVal Str_Model Agg_Model Utils_Model Config_Model Stmt_Syntax Stmt_Model.
Set Implicit Arguments.

Section Raw.
Variables sp word : N -> bool.
(** What follows [p], if the text begins with it. *)
Definition after (p s : text) : option text := if prefixb p s then Some (skipn (length p) s) else None.
(** The lazy run of word characters and dots up to the closing parenthesis, which is not one of these characters. *)
Fixpoint name_run (s : text) : text * text :=
  match s with
  | c :: r => if word c || (c =? 46)%N then let (a, b) := name_run r in (c :: a, b) else ([], s)
  | [] => ([], [])
  end.
(** The end of a block: white space, optionally a closing parenthesis and the opening of a comment, endraw, the end of a comment. *)
Definition raw_end (s : text) : option text :=
  let s := lstrip sp s in
  let s := match after (t ")") s with
           | Some r => match after (t "/*") (lstrip sp r) with Some r => lstrip sp r | None => s end
           | None => s
           end in
  match after (t "endraw") s with Some r => after (t "*/") (lstrip sp r) | None => None end.
(** The lazy group and the end: the shortest text that is followed by one. *)
Fixpoint raw_body (s : text) : option (text * text) :=
  match raw_end s with
  | Some r => Some ([], r)
  | None => match s with
            | [] => None
            | c :: s => match raw_body s with Some (b, r) => Some (c :: b, r) | None => None end
            end
  end.
(** The whole expression at the beginning of [s]: the name, the SQL, what follows. *)
Definition match_raw (s : text) : option (text * text * text) :=
  match after (t "/*") s with
  | None => None
  | Some s =>
    match after (t "raw(") (lstrip sp s) with
    | None => None
    | Some s =>
      let (name, s) := name_run s in
      match name, after (t ")") s with
      | _ :: _, Some s =>
        let s := lstrip sp s in
        let s := match after (t "*/") s with
                 | Some r => match after (t "(") (lstrip sp r) with Some r => r | None => s end
                 | None => s
                 end in
        match raw_body (lstrip sp s) with Some (q, r) => Some (name, q, r) | None => None end
      | _, _ => None
      end
    end
  end.
(** RAW_SQL_RE.findall: whole match, name, SQL *)
Fixpoint find_raws (fuel : nat) (s : text) : list (text * text * text) :=
  match fuel with
  | O => []
  | S fuel =>
    match match_raw s with
    | Some (n, q, r) => (firstn (length s - length r) s, n, q) :: find_raws fuel r
    | None => match s with [] => [] | _ :: r => find_raws fuel r end
    end
  end.
End Raw.

Section Run.
Variables Q C D : Type.
Variable m : machine Q C D.
Variable word : N -> bool.
Notation world := (world C D).
(** executor.py:150-155: the views are made one after the other, and the blocks replaced. *)
Fixpoint define_views (fuel : nat) (raws : list (text * text * text)) (sql : text) (w : world) (q : list (runner C)) : world * list (runner C) * res text :=
  match raws with
  | [] => (w, q, Ok sql)
  | (raw, name, body) :: raws =>
    match split_on 46 name with
    | [d; v] =>
      match submit m fuel (t "set @config.databases." ++ d ++ t ".virtual_views." ++ v ++ t "='''" ++ [10%N] ++ strip (m_sp m) body ++ [10%N] ++ t "'''") w with
      | (w, q', None) => define_views fuel raws (py_replace sql raw name) w (q ++ q')
      | (w, q', Some e) => (w, q ++ q', Err e)
      end
    | _ => (w, q, Err CompileError)
    end
  end.
(** executor.py:149-156, for one statement *)
Definition submit_text (fuel : nat) (sql : text) (w : world) : world * list (runner C) * option exn :=
  match define_views fuel (find_raws (m_sp m) word (S (length sql)) sql) sql w [] with
  | (w, q, Ok sql) => match submit m fuel sql w with (w, q', e) => (w, q ++ q', e) end
  | (w, q, Err e) => (w, q, Some e)
  end.
(** executor.py:146-156: a script; an error ends it. What has been submitted before stays in the queue. *)
Fixpoint submit_script (fuel : nat) (sqls : list text) (w : world) : world * list (runner C) * option exn :=
  match sqls with
  | [] => (w, [], None)
  | s :: sqls =>
    match submit_text fuel s w with
    | (w, q, None) => match submit_script fuel sqls w with (w, q', e) => (w, q ++ q', e) end
    | other => other
    end
  end.
End Run.

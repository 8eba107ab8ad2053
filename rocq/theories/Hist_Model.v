(** Model of the prompt's history file: syncanysql/prompt.py:156-191 CliFileHistory, and the part of prompt_toolkit's
    FileHistory.store_string it calls (which appends "\n# <time>\n" and a line "+<line>\n" for every line of the entry).
    The file is its text; UTF-8 encoding and decoding is the identity here (texts that can be encoded). *)
From Verif Require Import Base PyVal Utils_Model.

(** Iterating over a file: the lines, each with its line feed. *)
Fixpoint lines_of (s : text) (cur : text) : list text :=
  match s with
  | [] => match cur with [] => [] | _ => [rev cur] end
  | c :: r => if (c =? 10)%N then rev (c :: cur) :: lines_of r [] else lines_of r (c :: cur)
  end.
Definition starts (c : N) (l : text) : bool := match l with x :: _ => (x =? c)%N | [] => false end.

(** prompt.py:158-180: the loop over the lines. State: strings and their times (parallel lists), the lines of the entry
    being read, the last time line. [strings] and [time_strings] are kept as one list of pairs, oldest first. *)
Definition flush (acc : list (text * text)) (lines : list text) (time : text) : list (text * text) :=
  acc ++ [(removelast (concat lines), time)].   (* "".join(lines)[:-1] *)
Fixpoint load_loop (ls : list text) (acc : list (text * text)) (lines : list text) (time : text) : list (text * text) :=
  match ls with
  | [] => match lines with [] => acc | _ => flush acc lines time end
  | l :: r =>
    if starts 43 l then load_loop r acc (lines ++ [tl l]) time
    else let time' := if starts 35 l then l else time in
         match lines with
         | [] => load_loop r acc [] time'
         | _ => load_loop r (flush acc lines time') [] time'
         end
  end.
(** prompt.py:184-189: one entry as written when trimming. *)
Definition rewrite_entry (e : text * text) : text :=
  10%N :: snd e ++ concat (map (fun l => 43%N :: l ++ [10%N]) (split_on 10%N (fst e))).
(** prompt.py:157-190 load_history_strings: (what is returned, the file afterwards). [strings[i - 50]] for i in range(50). *)
Definition load (file : text) : list text * text :=
  let es := load_loop (lines_of file []) [] [] [] in
  if (length es <=? 50)%nat then (rev (map fst es), file)
  else (rev (map fst es), concat (map rewrite_entry (skipn (length es - 50) es))).
(** prompt.py:192-195 store_string; [lower] is str.lower, [now] str(datetime.now()). *)
Definition store (lower : text -> text) (file : text) (now : text) (s : text) : text :=
  if text_eqb (firstn 4 (lower s)) (t "exit") then file
  else file ++ 10%N :: 35%N :: 32%N :: now ++ 10%N :: concat (map (fun l => 43%N :: l ++ [10%N]) (split_on 10%N s)).

(** Model of the batched GROUP BY of syncanysql/taskers/query.py: ReduceHooker and QueryTasker.run_reduce.
    A row is reduced to its group key and the value handed to one aggregate column; with several columns
    the state is a tuple (the steps are arbitrary functions, so a tuple of states is covered). *)
From Verif Require Import Base Agg_Model.
Open Scope nat_scope.

Section Reduce.
Context {K V S : Type}.
Variable keq : K -> K -> bool.         (* Python dict-key equality of group keys *)
Variable init : S.                     (* None: no state yet *)
Variable agg : S -> V -> res S.        (* ::aggregate *)
Variable red : S -> S -> res S.        (* ::reduce *)

(** The external #aggregate operator of the package syncany: rows are grouped by key in order of first
    appearance; the state of a key is threaded through [step]. *)
Fixpoint upd {W} (step : S -> W -> res S) (k : K) (w : W) (tbl : list (K * S)) : res (list (K * S)) :=
  match tbl with
  | [] => do s <- step init w; Ok [(k, s)]
  | (k', s) :: r => if keq k' k then do s' <- step s w; Ok ((k', s') :: r)
                    else do r' <- upd step k w r; Ok ((k', s) :: r')
  end.
Definition group {W} (step : S -> W -> res S) (rows : list (K * W)) : res (list (K * S)) :=
  run (fun tbl kw => upd step (fst kw) (snd kw) tbl) [] rows.

(** The hooker's counters (query.py:31-33) and the intermediate table in memory. *)
Record hook := mkhook { h_count : nat; h_batches : nat; h_table : list (K * S) }.

(** query.py:339-374 run_reduce with final_reduce = False: read the intermediate table, group it by
    _aggregate_key_ with the ::reduce steps (296-337), and replace it ("use DI": delete, insert). *)
Definition run_reduce (tbl : list (K * S)) : res (list (K * S)) := group red tbl.

(** query.py:35-47 outputed: called by the package after the aggregated rows [part] of one batch were
    inserted ("use I") into the intermediate table.  [batch] is @batch; [limited] stands for
    0 < @limit <= store_count, both kept by the package: an arbitrary predicate of the table. *)
Definition outputed (batch : nat) (limited : list (K * S) -> bool) (part : list (K * S)) (h : hook) : res hook :=
  let tbl := h_table h ++ part in
  match part with
  | [] => Ok (mkhook (h_count h) (h_batches h) tbl)
  | _ =>
    if (0 <? batch) && (0 <? h_count h) && (batch <=? h_count h + length part)
    then do tbl' <- run_reduce tbl; Ok (mkhook 0 1 tbl')
    else if limited tbl
         then do tbl' <- run_reduce tbl; Ok (mkhook 0 1 tbl')
         else Ok (mkhook (h_count h + length part) (h_batches h + 1) tbl)
  end.

(** query.py:49-52 finaled without an exception. *)
Definition finaled (h : hook) : res (list (K * S)) :=
  if h_batches h <=? 1 then Ok (h_table h) else run_reduce (h_table h).

(** One batch of source rows: aggregate it, insert the result, call the hook.  A failing batch aborts the
    query. *)
Definition batch_step (batch : nat) (limited : list (K * S) -> bool) (h : hook) (rows : list (K * V)) : res hook :=
  do part <- group agg rows; outputed batch limited part h.

(** The whole run up to the final select (query.py:153-189): the rows handed to run_reduce(final). *)
Definition run_batches (batch : nat) (limited : list (K * S) -> bool) (batches : list (list (K * V))) : res (list (K * S)) :=
  do h <- run (batch_step batch limited) (mkhook 0 0 []) batches; finaled h.
End Reduce.

(** Model of how a query and its subqueries are run: taskers/query.py:155-186 QueryTasker.run, 188-210 run_yield, 423-450 run_tasker, and
    executor.py:170-178 Executor.execute, 184-185 add_runner.

    A statement is a tree of taskers: each reads the temporary tables that its dependency_taskers write. What one batch of a tasker does
    (one send to CoreTasker.run_yield, which is in the package), what run_reduce does and what closing does (check_free_temporary_memory_collection
    and tasker.close) is left abstract: any function of the whole outside world. So is the value of @streaming, which is looked up in the
    variables again after every batch.

    Simplifications. The generator made by run_tasker is the tree of the taskers that are not finished: a send goes on from there. Logging, the
    current tasker of the thread, the updaters of table names and the temporary tables of the finally block (C38) are left out. A tasker
    that hides SystemError or KeyboardInterrupt behaves as with any other exception (435-444: the three handlers do the same). The trace of events
    is recorded for the specification only. [None] means that the run is still going on after [fuel] steps. *)
From Verif Require Import Base.

Inductive tasker (Id : Type) := Tasker (id : Id) (reduces : bool) (deps : list (tasker Id)).
Arguments Tasker {Id}.
Definition tid {Id} (g : tasker Id) : Id := match g with Tasker i _ _ => i end.
Definition treduces {Id} (g : tasker Id) : bool := match g with Tasker _ r _ => r end.       (* self.reduce_config *)
Definition tdeps {Id} (g : tasker Id) : list (tasker Id) := match g with Tasker _ _ ds => ds end.

Inductive event (Id : Type) := Batched (id : Id) | Reduced (id : Id) | Closed (id : Id) (ok : bool).
Arguments Batched {Id}. Arguments Reduced {Id}. Arguments Closed {Id}.
Inductive sent (Exn : Type) := Yields | Stops | Throws (e : Exn).
Arguments Yields {Exn}. Arguments Stops {Exn}. Arguments Throws {Exn}.

Record engine (World Exn Id : Type) := Engine {
  batch : Id -> World -> World * sent Exn;
  reduce : Id -> World -> World * option Exn;
  close : Id -> bool -> World -> World;
  streaming : World -> bool }.
Arguments batch {World Exn Id}. Arguments reduce {World Exn Id}. Arguments close {World Exn Id}. Arguments streaming {World Exn Id}.

Section Run.
Variables World Exn Id : Type.
Variable m : engine World Exn Id.

Inductive reply := RYield (g : tasker Id) | RStop | RThrow (e : Exn).
Definition answer : Type := World * list (event Id) * reply.

(** 194-203: one pass over the dependencies. *)
Definition pass (snd : tasker Id -> World -> option answer) : list (tasker Id) -> World -> option (World * list (event Id) * (list (tasker Id) + Exn)) :=
  fix pass ds w :=
    match ds with
    | [] => Some (w, [], inl [])
    | d :: r =>
      match snd d w with
      | None => None
      | Some (w1, tr, RThrow e) => Some (w1, tr, inr e)
      | Some (w1, tr, RYield d') =>
        match pass r w1 with
        | None => None
        | Some (w2, tr2, inl ds') => Some (w2, tr ++ tr2, inl (d' :: ds'))
        | Some (w2, tr2, inr e) => Some (w2, tr ++ tr2, inr e)
        end
      | Some (w1, tr, RStop) =>
        if treduces d then
          match reduce m (tid d) w1 with
          | (w2, Some e) => Some (w2, tr ++ [Reduced (tid d)], inr e)
          | (w2, None) => match pass r w2 with None => None | Some (w3, tr2, x) => Some (w3, tr ++ [Reduced (tid d)] ++ tr2, x) end
          end
        else match pass r w1 with None => None | Some (w2, tr2, x) => Some (w2, tr ++ tr2, x) end
      end
    end.

(** 423-450 around 193-210: one send to the generator. *)
Fixpoint send (fuel : nat) (g : tasker Id) (w : World) : option answer :=
  match fuel with
  | O => None
  | S f =>
    match g with
    | Tasker id r ds =>
      match pass (send f) ds w with
      | None => None
      | Some (w1, tr, inr e) => Some (close m id false w1, tr ++ [Closed id false], RThrow e)
      | Some (w1, tr, inl ds') =>
        match batch m id w1 with
        | (w2, Stops) => Some (close m id true w2, tr ++ [Batched id; Closed id true], RStop)
        | (w2, Throws e) => Some (close m id false w2, tr ++ [Batched id; Closed id false], RThrow e)
        | (w2, Yields) =>
          if streaming m w2 then Some (w2, tr ++ [Batched id], RYield (Tasker id r ds'))
          else match send f (Tasker id r ds') w2 with
               | None => None
               | Some (w3, tr3, x) => Some (w3, tr ++ [Batched id] ++ tr3, x)
               end
        end
      end
    end
  end.

(** 155-186: QueryTasker.run. *)
Inductive outcome := Again (g : tasker Id) | Finished | Failed (e : Exn).
Definition turn (fuel : nat) (g : tasker Id) (w : World) : option (World * list (event Id) * outcome) :=
  match send fuel g w with
  | None => None
  | Some (w1, tr, RYield g') => Some (w1, tr, Again g')
  | Some (w1, tr, RThrow e) => Some (w1, tr, Failed e)
  | Some (w1, tr, RStop) =>
    if treduces g then
      match reduce m (tid g) w1 with
      | (w2, Some e) => Some (w2, tr ++ [Reduced (tid g)], Failed e)
      | (w2, None) => Some (w2, tr ++ [Reduced (tid g)], Finished)
      end
    else Some (w1, tr, Finished)
  end.

(** executor.py:170-178, after [n] turns at the most; the result: the world, what happened, the waiting statements, and the exception. *)
Fixpoint execute (n fuel : nat) (q : list (tasker Id)) (w : World) : option (World * list (event Id) * list (tasker Id) * option Exn) :=
  match n, q with
  | _, [] => Some (w, [], [], None)
  | O, _ => Some (w, [], q, None)
  | S n, g :: q =>
    match turn fuel g w with
    | None => None
    | Some (w1, tr, Failed e) => Some (w1, tr, q, Some e)
    | Some (w1, tr, o) =>
      match execute n fuel (q ++ match o with Again g' => [g'] | _ => [] end) w1 with
      | None => None
      | Some (w2, tr2, q', x) => Some (w2, tr ++ tr2, q', x)
      end
    end
  end.
End Run.
Arguments RYield {Exn Id}. Arguments RStop {Exn Id}. Arguments RThrow {Exn Id}.
Arguments Again {Exn Id}. Arguments Finished {Exn Id}. Arguments Failed {Exn Id}.
Arguments send {World Exn Id}. Arguments turn {World Exn Id}. Arguments execute {World Exn Id}. Arguments pass {World Exn Id}.

(** The life of a dispatcher and its threads: dispatchers/DispatchedModel.cpp:47-93 (construction), 612-663 (pool) and 91
    (destruction), with members as declared at 665-681.  Definitions only.

    [Pool] starts with all threads there.  Here they are made one after the other while those already made run.  A step is one
    Model made, one queue added to the map [_tasks] (in two halves, for that is done without the mutex), the call that
    initialises torch, one thread made, or a step as in [Pool].  Any of the steps of the construction may throw.  Simplification:
    the device stands for its name (Device::str is one to one); the order of the names in std::map is an argument. *)
From Verif Require Import Base Tensor Shared Pool.

(** Where the owning thread is. *)
Inductive life_pc : Type :=
| BModels (todo : list device)              (* 60-66: a Model for each device of the scheduler *)
| BQueues (todo : list device)              (* 616 *)
| BQueue (d : device) (todo : list device)  (* 617: within [_tasks[name]] *)
| BLinalg                                   (* 620 *)
| BSpawn (todo : list device)               (* 621-622 *)
| Own (o : owner_pc)                        (* constructed; as in Pool *)
| Gone                                      (* destroyed *)
| Thrown (e : exn)                          (* the constructor has thrown *)
| Terminated                                (* std::terminate *)
| Undefined.                                (* undefined behaviour *)

Record life (T : Type) : Type := mkL
  { l_models : list device; l_queues : list (device * list T); l_threads : list (device * pool_pc T);
    l_stop : bool; l_pc : life_pc }.
Arguments mkL {T}. Arguments l_models {T}. Arguments l_queues {T}. Arguments l_threads {T}. Arguments l_stop {T}. Arguments l_pc {T}.

Section Life.
  Context {T : Type}.
  Variable before : device -> device -> bool.
  Variable async : bool.

  (** [_models.emplace(dev.str(), std::move(model))], 65: an entry that is there stays. *)
  Fixpoint place (d : device) (l : list device) : list device :=
    match l with
    | [] => [d]
    | x :: r => if before d x then d :: l else x :: place d r
    end.
  Definition emplace (d : device) (l : list device) : list device := if existsb (device_eqb d) l then l else place d l.

  (** [_tasks.at(key)] *)
  Fixpoint queue_at (d : device) (Q : list (device * list T)) : option (list T) :=
    match Q with [] => None | (x, q) :: r => if device_eqb x d then Some q else queue_at d r end.
  Fixpoint set_queue (d : device) (q : list T) (Q : list (device * list T)) : list (device * list T) :=
    match Q with [] => [] | (x, p) :: r => if device_eqb x d then (x, q) :: r else (x, p) :: set_queue d q r end.

  Definition goto (s : life T) (p : life_pc) : life T := mkL (l_models s) (l_queues s) (l_threads s) (l_stop s) p.
  Definition wake (x : device * pool_pc T) : device * pool_pc T := match snd x with PSleep => (fst x, PIdle) | _ => x end.
  Definition with_threads (s : life T) (l : list (device * pool_pc T)) : life T := mkL (l_models s) (l_queues s) l (l_stop s) (l_pc s).

  (** A constructor throws: ~Impl does not run, the members are destroyed, [_threads] first; ~thread of a thread that has not
      been joined calls std::terminate. *)
  Definition unwind (s : life T) (e : exn) : life T :=
    match l_threads s with
    | [] => mkL [] [] [] (l_stop s) (Thrown e)
    | _ => goto s Terminated
    end.

  Inductive llabel : Type :=
  | LMake                 (* the owner goes on with the construction *)
  | LFail (e : exn)       (* what it does there throws *)
  | LPool (l : plabel T)
  | LDestroy.             (* the members of Impl, after stop_pool() *)

  Definition may_fail (p : life_pc) : bool :=
    match p with BModels (_ :: _) | BQueue _ _ | BLinalg | BSpawn (_ :: _) => true | _ => false end.
  Definition alive (p : life_pc) : bool := match p with Terminated | Undefined | Thrown _ => false | _ => true end.

  (** The construction, 47-72 and 612-623. *)
  Definition make (s : life T) : option (life T) :=
    match l_pc s with
    | BModels (d :: r) => Some (mkL (emplace d (l_models s)) (l_queues s) (l_threads s) (l_stop s) (BModels r))
    | BModels [] => Some (goto s (if async then BQueues (l_models s) else Own OFree))
    | BQueues (d :: r) => Some (goto s (BQueue d r))
    | BQueues [] => Some (goto s BLinalg)
    | BQueue d r => Some (mkL (l_models s) (l_queues s ++ [(d, [])]) (l_threads s) (l_stop s) (BQueues r))
    | BLinalg => Some (goto s (BSpawn (l_models s)))
    | BSpawn (d :: r) => Some (mkL (l_models s) (l_queues s) (l_threads s ++ [(d, PIdle)]) (l_stop s) (BSpawn r))
    | BSpawn [] => Some (goto s (Own OFree))
    | _ => None
    end.

  (** worker_main:631-637 by thread [i].  It reads [_tasks]: in the middle of a change made without the mutex this is a race;
      an exception leaving the thread's function ends the process. *)
  Definition work (s : life T) (i : nat) (d : device) : life T :=
    match l_pc s with
    | BQueue _ _ => goto s Undefined
    | _ =>
        match queue_at d (l_queues s) with
        | None => goto s Terminated
        | Some (t :: q) => mkL (l_models s) (set_queue d q (l_queues s)) (set_nth i (d, PRun t) (l_threads s)) (l_stop s) (l_pc s)
        | Some [] => with_threads s (set_nth i (d, if l_stop s then PExit else PSleep) (l_threads s))
        end
    end.
  (** 638: a task uses the Model of its device (110, 141, 181, 237, 301: [_models.at]). *)
  Definition run_task (s : life T) (i : nat) (d : device) : life T :=
    if existsb (device_eqb d) (l_models s) then with_threads s (set_nth i (d, PIdle) (l_threads s)) else goto s Undefined.

  Inductive lstep : life T -> llabel -> life T -> Prop :=
  | ls_make s s' : make s = Some s' -> lstep s LMake s'
  | ls_fail s e : may_fail (l_pc s) = true -> lstep s (LFail e) (unwind s e)
  | ls_enq s d t q : l_pc s = Own OFree -> queue_at d (l_queues s) = Some q ->
      lstep s (LPool (PEnq d t)) (mkL (l_models s) (set_queue d (q ++ [t]) (l_queues s)) (l_threads s) (l_stop s) (Own ONotify))
  | ls_enq_bad s d t : l_pc s = Own OFree -> queue_at d (l_queues s) = None -> lstep s (LPool (PEnqBad d t)) s
  | ls_notify s : l_pc s = Own ONotify -> lstep s (LPool POwner) (goto (with_threads s (map wake (l_threads s))) (Own OFree))
  | ls_stop s : l_pc s = Own OFree -> l_threads s <> [] ->
      lstep s (LPool PStop) (mkL (l_models s) (l_queues s) (l_threads s) true (Own OStopNotify))
  | ls_stop_empty s : l_pc s = Own OFree -> l_threads s = [] -> lstep s (LPool PStop) (goto s (Own ODone))
  | ls_stop_notify s : l_pc s = Own OStopNotify -> lstep s (LPool POwner) (goto (with_threads s (map wake (l_threads s))) (Own (OJoin 0)))
  | ls_join s n d : l_pc s = Own (OJoin n) -> nth_error (l_threads s) n = Some (d, PExit) -> lstep s (LPool POwner) (goto s (Own (OJoin (S n))))
  | ls_join_end s n : l_pc s = Own (OJoin n) -> nth_error (l_threads s) n = None -> lstep s (LPool POwner) (goto s (Own ODone))
  | ls_destroy s : l_pc s = Own ODone -> lstep s LDestroy (mkL [] [] (l_threads s) (l_stop s) Gone)
  | ls_worker s i d : alive (l_pc s) = true -> nth_error (l_threads s) i = Some (d, PIdle) -> lstep s (LPool (PWorker i)) (work s i d)
  | ls_task s i d t : alive (l_pc s) = true -> nth_error (l_threads s) i = Some (d, PRun t) -> lstep s (LPool (PTask i t)) (run_task s i d)
  | ls_spur s i d : alive (l_pc s) = true -> nth_error (l_threads s) i = Some (d, PSleep) ->
      lstep s (LPool (PSpur i)) (with_threads s (set_nth i (d, PIdle) (l_threads s))).

  (** 47-60: before the first Model. *)
  Definition linit (devs : list device) : life T := mkL [] [] [] false (BModels devs).

  Inductive lexec : life T -> list llabel -> life T -> Prop :=
  | lx_nil s : lexec s [] s
  | lx_snoc s ls s1 l s2 : lexec s ls s1 -> lstep s1 l s2 -> lexec s (ls ++ [l]) s2.
End Life.
Arguments llabel T : clear implicits.

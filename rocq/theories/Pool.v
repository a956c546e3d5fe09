(** The worker pool by itself: dispatchers/DispatchedModel.cpp:612-663
    (start_pool_if_async, worker_main, enqueue, stop_pool), with tasks as opaque
    values of a type [T].  Definitions only.

    A step is one critical section under [_qmutex], one notify_all, the
    execution of one task, or one join.  Tasks are noexcept (540-557).  Memory is
    sequentially consistent.  The owning thread may enqueue to any device and may
    request shutdown at any moment. *)
From Verif Require Import Base Tensor Shared.

Inductive pool_pc (T : Type) : Type :=
| PIdle                (* 631: evaluate the predicate *)
| PSleep               (* 632: asleep in _qcv.wait *)
| PRun (t : T)         (* 638 *)
| PExit.               (* 634: returned *)
Arguments PIdle {T}. Arguments PSleep {T}. Arguments PRun {T}. Arguments PExit {T}.

Record pworker (T : Type) : Type := mkPW
  { pw_dev : device; pw_pc : pool_pc T; pw_queue : list T }.
Arguments mkPW {T}. Arguments pw_dev {T}. Arguments pw_pc {T}. Arguments pw_queue {T}.

Inductive owner_pc : Type :=
| OFree                (* outside the pool's functions *)
| ONotify              (* 648 *)
| OStopNotify          (* 659 *)
| OJoin (n : nat)      (* 660-661: joining thread n *)
| ODone.               (* 662 *)

Record pstate (T : Type) : Type := mkPS
  { p_stop : bool; p_workers : list (pworker T); p_owner : owner_pc }.
Arguments mkPS {T}. Arguments p_stop {T}. Arguments p_workers {T}. Arguments p_owner {T}.

Section Pool.
  Context {T : Type}.

  Inductive plabel : Type :=
  | PEnq (d : device) (t : T)   (* 644-647 *)
  | PEnqBad (d : device) (t : T)  (* 646 throws: no such queue *)
  | POwner                      (* the owner moves inside a pool function *)
  | PStop                       (* 653-658 *)
  | PWorker (i : nat)           (* 631-637 *)
  | PTask (i : nat) (t : T)     (* 638 *)
  | PSpur (i : nat).            (* spurious wake-up *)

  Definition pwake (w : pworker T) : pworker T :=
    match pw_pc w with PSleep => mkPW (pw_dev w) PIdle (pw_queue w) | _ => w end.

  (** [_tasks.at(d.str()).push(t)] *)
  Fixpoint ppush (d : device) (t : T) (ws : list (pworker T)) : option (list (pworker T)) :=
    match ws with
    | [] => None
    | w :: ws' =>
        if device_eqb (pw_dev w) d
        then Some (mkPW (pw_dev w) (pw_pc w) (pw_queue w ++ [t]) :: ws')
        else match ppush d t ws' with Some r => Some (w :: r) | None => None end
    end.

  (** worker_main:631-637, one evaluation of the predicate under the lock. *)
  Definition pwork (stop : bool) (w : pworker T) : pworker T :=
    match pw_queue w with
    | t :: q => mkPW (pw_dev w) (PRun t) q
    | [] => mkPW (pw_dev w) (if stop then PExit else PSleep) []
    end.

  Inductive pstep : pstate T -> plabel -> pstate T -> Prop :=
  | ps_enq s d t ws :
      p_owner s = OFree -> ppush d t (p_workers s) = Some ws ->
      pstep s (PEnq d t) (mkPS (p_stop s) ws ONotify)
  | ps_enq_bad s d t :
      p_owner s = OFree -> ppush d t (p_workers s) = None -> pstep s (PEnqBad d t) s
  | ps_notify s :
      p_owner s = ONotify -> pstep s POwner (mkPS (p_stop s) (map pwake (p_workers s)) OFree)
  | ps_stop s :
      p_owner s = OFree -> p_workers s <> [] ->
      pstep s PStop (mkPS true (p_workers s) OStopNotify)
  | ps_stop_empty s :
      p_owner s = OFree -> p_workers s = [] -> pstep s PStop (mkPS (p_stop s) [] ODone)
  | ps_stop_notify s :
      p_owner s = OStopNotify ->
      pstep s POwner (mkPS (p_stop s) (map pwake (p_workers s)) (OJoin 0))
  | ps_join s n w :
      p_owner s = OJoin n -> nth_error (p_workers s) n = Some w -> pw_pc w = PExit ->
      pstep s POwner (mkPS (p_stop s) (p_workers s) (OJoin (S n)))
  | ps_join_end s n :
      p_owner s = OJoin n -> nth_error (p_workers s) n = None ->
      pstep s POwner (mkPS (p_stop s) (p_workers s) ODone)
  | ps_worker s i w :
      nth_error (p_workers s) i = Some w -> pw_pc w = PIdle ->
      pstep s (PWorker i)
            (mkPS (p_stop s) (set_nth i (pwork (p_stop s) w) (p_workers s)) (p_owner s))
  | ps_task s i w t :
      nth_error (p_workers s) i = Some w -> pw_pc w = PRun t ->
      pstep s (PTask i t)
            (mkPS (p_stop s) (set_nth i (mkPW (pw_dev w) PIdle (pw_queue w)) (p_workers s))
                  (p_owner s))
  | ps_spur s i w :
      nth_error (p_workers s) i = Some w -> pw_pc w = PSleep ->
      pstep s (PSpur i) (mkPS (p_stop s) (set_nth i (pwake w) (p_workers s)) (p_owner s)).

  (** start_pool_if_async: 616-622. *)
  Definition pinit (devs : list device) : pstate T :=
    mkPS false (map (fun d => mkPW d PIdle []) devs) OFree.

  Inductive pexec : pstate T -> list plabel -> pstate T -> Prop :=
  | px_nil s : pexec s [] s
  | px_snoc s ls s1 l s2 : pexec s ls s1 -> pstep s1 l s2 -> pexec s (ls ++ [l]) s2.
End Pool.
Arguments plabel T : clear implicits.

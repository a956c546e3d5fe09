(** dispatchers/DispatchedModel.cpp:486-649 (run_async, worker_main, enqueue) on
    an AsyncScheduler (AsyncScheduler.cpp:29-62) with the StaticHybridScheduler
    table of Sched.v, as a labelled transition system.  Definitions only.

    One dispatch thread ([a_main]) makes any number of calls, one after the
    other; one worker thread per device ([a_workers]).  A step is one critical
    section (everything done while holding one mutex), one notify_all, or one
    chunk evaluation.  A thread in [cv.wait(lock, pred)] evaluates [pred] under
    the lock; if false it releases the lock and sleeps in the same step; it
    re-evaluates after a notify_all or a spurious wake-up.

    Simplifications: the two notify_all calls of dispatched_work (564) and of
    the roll-back (574) are folded into the preceding step, because the only
    thread that waits on the scheduler's condition variable is the dispatch
    thread itself; memory is sequentially consistent (all shared data is
    accessed under the mutexes); shutdown is in Pool.v. *)
From Verif Require Import Base Tensor Sched Dispatch Shared.

(** The task lambda's captures (run_async:534-557). *)
Record task : Type := mkTask { tk_dev : device; tk_start : Z; tk_count : Z; tk_idx : nat }.

(** Program counter of the dispatch thread. *)
Inductive main_pc (R : Type) : Type :=
| MIdle (o : option (result (list (option R))))  (* no call running; outcome of the last *)
| MLoop                          (* 500: start < b, then 503-507 *)
| MSched                         (* 511: evaluate schedule_work's predicate *)
| MSleepS                        (* 511: asleep in schedule_work *)
| MCheck2 (d : device) (n : Z)   (* 516-520 *)
| MReserve (d : device) (n : Z)  (* 521-529 *)
| MDispatch (tk : task)          (* 564 *)
| MEnq (tk : task)               (* 567, enqueue 644-647 *)
| MENotify (tk : task)           (* 648 notify_all, then 577 start += count *)
| MRollback (tk : task) (e : exn)  (* 574 *)
| MRecord (e : exn)              (* 580-589 *)
| MWait                          (* 594: evaluate wait_for_completion's predicate *)
| MSleepW.                       (* 594: asleep in wait_for_completion *)
Arguments MIdle {R}. Arguments MLoop {R}. Arguments MSched {R}. Arguments MSleepS {R}.
Arguments MCheck2 {R}. Arguments MReserve {R}. Arguments MDispatch {R}. Arguments MEnq {R}.
Arguments MENotify {R}. Arguments MRollback {R}. Arguments MRecord {R}. Arguments MWait {R}.
Arguments MSleepW {R}.

(** Program counter of a worker. *)
Inductive worker_pc (R : Type) : Type :=
| WIdle                          (* 631-636: evaluate the queue predicate *)
| WSleep                         (* 632: asleep *)
| WRun (tk : task)               (* 543: chunk_fn *)
| WRecord (tk : task) (r : result R)  (* 544-552 *)
| WDone (tk : task)              (* 556 completed_work, critical section *)
| WNotify                        (* 556 completed_work, notify_all *)
| WCrash (tk : task).                     (* std::terminate: an exception left the noexcept task,
                                    or an out-of-bounds vector access *)
Arguments WIdle {R}. Arguments WSleep {R}. Arguments WRun {R}. Arguments WRecord {R}.
Arguments WDone {R}. Arguments WNotify {R}. Arguments WCrash {R}.

Record worker (R : Type) : Type := mkWorker
  { w_dev : device; w_pc : worker_pc R; w_queue : list task }.
Arguments mkWorker {R}. Arguments w_dev {R}. Arguments w_pc {R}. Arguments w_queue {R}.

Record astate (R : Type) : Type := mkA
  { a_tbl : list dstatus;               (* the scheduler *)
    a_workers : list (worker R);        (* device workers and their queues *)
    a_main : main_pc R;
    a_call : nat;                       (* number of the current (or last) call *)
    a_b : Z;                            (* its batch size *)
    a_start : Z;
    a_results : list (option R);        (* results; None: default constructed *)
    a_errors : list (option exn);       (* errors; None: null exception_ptr *)
    a_failed : bool;
    a_derr : option exn;                (* dispatch_error *)
    (* ghosts, written but never read: *)
    a_slots : list task;                (* the task of each reserved slot *)
    a_evals : list (task * result R) }. (* the chunk evaluations of this call *)
Arguments mkA {R}. Arguments a_tbl {R}. Arguments a_workers {R}. Arguments a_main {R}.
Arguments a_call {R}. Arguments a_b {R}. Arguments a_start {R}. Arguments a_results {R}.
Arguments a_errors {R}. Arguments a_failed {R}. Arguments a_derr {R}. Arguments a_slots {R}.
Arguments a_evals {R}.

(** [static_cast<std::size_t>(count)] of an int64_t. *)
Definition to_size (n : Z) : Z := (n mod 2 ^ 64)%Z.

Section Async.
  Context {R : Type}.
  Notation st := (astate R).

  Definition with_main (s : st) (m : main_pc R) : st :=
    mkA (a_tbl s) (a_workers s) m (a_call s) (a_b s) (a_start s) (a_results s) (a_errors s)
        (a_failed s) (a_derr s) (a_slots s) (a_evals s).
  Definition with_tbl (s : st) (t : list dstatus) : st :=
    mkA t (a_workers s) (a_main s) (a_call s) (a_b s) (a_start s) (a_results s) (a_errors s)
        (a_failed s) (a_derr s) (a_slots s) (a_evals s).
  Definition with_workers (s : st) (ws : list (worker R)) : st :=
    mkA (a_tbl s) ws (a_main s) (a_call s) (a_b s) (a_start s) (a_results s) (a_errors s)
        (a_failed s) (a_derr s) (a_slots s) (a_evals s).
  Definition with_evals (s : st) (ev : list (task * result R)) : st :=
    mkA (a_tbl s) (a_workers s) (a_main s) (a_call s) (a_b s) (a_start s) (a_results s) (a_errors s)
        (a_failed s) (a_derr s) (a_slots s) ev.
  (** run_async:489-496: the locals of a fresh call. *)
  Definition new_call (s : st) (b : Z) : st :=
    mkA (a_tbl s) (a_workers s) MLoop (S (a_call s)) b 0 [] [] false None [] [].
  (** 523-529: reserve the next slot. *)
  Definition reserve (s : st) (tk : task) : st :=
    mkA (a_tbl s) (a_workers s) (MDispatch tk) (a_call s) (a_b s) (a_start s)
        (a_results s ++ [None]) (a_errors s ++ [None]) (a_failed s) (a_derr s)
        (a_slots s ++ [tk]) (a_evals s).
  Definition advance (s : st) (count : Z) : st :=
    mkA (a_tbl s) (a_workers s) MLoop (a_call s) (a_b s) (a_start s + count) (a_results s)
        (a_errors s) (a_failed s) (a_derr s) (a_slots s) (a_evals s).
  (** 580-589 *)
  Definition record_dispatch_error (s : st) (e : exn) : st :=
    mkA (a_tbl s) (a_workers s) MWait (a_call s) (a_b s) (a_start s) (a_results s) (a_errors s)
        true (match a_derr s with None => Some e | Some e0 => Some e0 end) (a_slots s) (a_evals s).
  (** 544-545 *)
  Definition store_result (s : st) (i : nat) (r : R) : st :=
    mkA (a_tbl s) (a_workers s) (a_main s) (a_call s) (a_b s) (a_start s)
        (set_nth i (Some r) (a_results s)) (a_errors s) (a_failed s) (a_derr s) (a_slots s)
        (a_evals s).
  (** 547-552 *)
  Definition store_error (s : st) (i : nat) (e : exn) : st :=
    mkA (a_tbl s) (a_workers s) (a_main s) (a_call s) (a_b s) (a_start s) (a_results s)
        (set_nth i (Some e) (a_errors s)) true (a_derr s) (a_slots s) (a_evals s).

  (** 596-609: gather failures in slot order, then decide. *)
  Fixpoint somes {A} (l : list (option A)) : list A :=
    match l with [] => [] | Some x :: l' => x :: somes l' | None :: l' => somes l' end.
  Definition gather (derr : option exn) (errors : list (option exn)) (results : list (option R))
    : result (list (option R)) :=
    match (match derr with Some e => [e] | None => [] end) ++ somes errors with
    | [] => Ok results
    | [e] => Err e
    | es => Err (Aggregate es)
    end.

  (** [_qcv.notify_all()]: every sleeping worker re-evaluates its predicate. *)
  Definition wake_worker (w : worker R) : worker R :=
    match w_pc w with
    | WSleep => mkWorker (w_dev w) WIdle (w_queue w)
    | _ => w
    end.
  (** The scheduler's [_cv.notify_all()]. *)
  Definition wake_main (m : main_pc R) : main_pc R :=
    match m with MSleepS => MSched | MSleepW => MWait | _ => m end.

  (** [_tasks.at(d.str()).push(task)]; [None]: no such queue. *)
  Fixpoint push (tk : task) (ws : list (worker R)) : option (list (worker R)) :=
    match ws with
    | [] => None
    | w :: ws' =>
        if device_eqb (w_dev w) (tk_dev tk)
        then Some (mkWorker (w_dev w) (w_pc w) (w_queue w ++ [tk]) :: ws')
        else match push tk ws' with Some r => Some (w :: r) | None => None end
    end.

  (** What can happen next. *)
  Inductive alabel : Type :=
  | LCall (b : Z)              (* the caller starts the next call *)
  | LMain                      (* the dispatch thread moves *)
  | LReserveFail (e : exn)     (* 525-526 throws (out of memory) *)
  | LEnqFail (e : exn)         (* 567 throws (out of memory) *)
  | LSpurMain                  (* spurious wake-up of the dispatch thread *)
  | LWorker (i : nat)          (* worker i moves (other than evaluating) *)
  | LEval (i : nat) (r : result R)  (* worker i's chunk_fn returns or throws *)
  | LSpurWorker (i : nat).     (* spurious wake-up of worker i *)

  Definition main_step (s : st) : option st :=
    match a_main s with
    | MIdle _ => None
    | MLoop =>
        Some (with_main s (if (a_start s <? a_b s)%Z
                           then (if a_failed s then MWait else MSched) else MWait))
    | MSched =>
        Some (with_main s (match schedule_work_impl (a_tbl s) with
                           | Some (d, n) => MCheck2 d n
                           | None => MSleepS
                           end))
    | MSleepS => None
    | MCheck2 d n => Some (with_main s (if a_failed s then MWait else MReserve d n))
    | MReserve d n =>
        let count := Z.min (to_int64 n) (a_b s - a_start s) in
        Some (reserve s (mkTask d (a_start s) count (length (a_results s))))
    | MDispatch tk =>
        Some (match dispatched_work_impl (a_tbl s) (tk_dev tk) (to_size (tk_count tk)) with
              | Ok t => with_main (with_tbl s t) (MEnq tk)
              | Err e => with_main s (MRecord e)
              end)
    | MEnq tk =>
        Some (match push tk (a_workers s) with
              | Some ws => with_main (with_workers s ws) (MENotify tk)
              | None => with_main s (MRollback tk (StdExn "map::at"))
              end)
    | MENotify tk =>
        Some (advance (with_workers s (map wake_worker (a_workers s))) (tk_count tk))
    | MRollback tk e =>
        Some (match completed_work_impl (a_tbl s) (tk_dev tk) (to_size (tk_count tk)) with
              | Ok t => with_main (with_tbl s t) (MRecord e)
              | Err e' => with_main s (MRecord e')
              end)
    | MRecord e => Some (record_dispatch_error s e)
    | MWait =>
        Some (with_main s (if all_work_completed (a_tbl s)
                           then MIdle (Some (gather (a_derr s) (a_errors s) (a_results s)))
                           else MSleepW))
    | MSleepW => None
    end.

  Definition set_worker (s : st) (i : nat) (w : worker R) : st :=
    with_workers s (set_nth i w (a_workers s)).

  Definition worker_step (s : st) (i : nat) : option st :=
    match nth_error (a_workers s) i with
    | None => None
    | Some w =>
        match w_pc w with
        | WIdle =>
            Some (set_worker s i (match w_queue w with
                                  | [] => mkWorker (w_dev w) WSleep []
                                  | tk :: q => mkWorker (w_dev w) (WRun tk) q
                                  end))
        | WSleep => None
        | WRun _ => None
        | WRecord tk r =>
            if Nat.ltb (tk_idx tk) (length (a_results s)) && Nat.ltb (tk_idx tk) (length (a_errors s))
            then Some (set_worker (match r with
                                   | Ok v => store_result s (tk_idx tk) v
                                   | Err e => store_error s (tk_idx tk) e
                                   end) i (mkWorker (w_dev w) (WDone tk) (w_queue w)))
            else Some (set_worker s i (mkWorker (w_dev w) (WCrash tk) (w_queue w)))
        | WDone tk =>
            Some (match completed_work_impl (a_tbl s) (tk_dev tk) (to_size (tk_count tk)) with
                  | Ok t => set_worker (with_tbl s t) i (mkWorker (w_dev w) WNotify (w_queue w))
                  | Err _ => set_worker s i (mkWorker (w_dev w) (WCrash tk) (w_queue w))
                  end)
        | WNotify =>
            Some (set_worker (with_main s (wake_main (a_main s))) i
                             (mkWorker (w_dev w) WIdle (w_queue w)))
        | WCrash _ => None
        end
    end.

  (** [run k d start count r]: in call [k], evaluating [chunk_fn(d, start, count)]
      may end with [r].  Arbitrary: an evaluation may also fail for reasons
      outside its arguments. *)
  Variable run : nat -> device -> Z -> Z -> result R -> Prop.

  Inductive astep : st -> alabel -> st -> Prop :=
  | step_call s o b : a_main s = MIdle o -> (0 <= b)%Z -> astep s (LCall b) (new_call s b)
  | step_main s s' : main_step s = Some s' -> astep s LMain s'
  | step_reserve_fail s d n e :
      a_main s = MReserve d n -> astep s (LReserveFail e) (with_main s (MRecord e))
  | step_enq_fail s tk e :
      a_main s = MEnq tk -> astep s (LEnqFail e) (with_main s (MRollback tk e))
  | step_spur_main s :
      a_main s = MSleepS \/ a_main s = MSleepW ->
      astep s LSpurMain (with_main s (wake_main (a_main s)))
  | step_worker s i s' : worker_step s i = Some s' -> astep s (LWorker i) s'
  | step_eval s i w tk r :
      nth_error (a_workers s) i = Some w -> w_pc w = WRun tk ->
      run (a_call s) (tk_dev tk) (tk_start tk) (tk_count tk) r ->
      astep s (LEval i r)
            (set_worker (with_evals s (a_evals s ++ [(tk, r)])) i
                        (mkWorker (w_dev w) (WRecord tk r) (w_queue w)))
  | step_spur_worker s i w :
      nth_error (a_workers s) i = Some w -> w_pc w = WSleep ->
      astep s (LSpurWorker i) (set_worker s i (wake_worker w)).

  (** A dispatcher just constructed (start_pool 612-623: one worker per device). *)
  Definition ainit (tbl : list dstatus) : st :=
    mkA tbl (map (fun t => mkWorker (ds_dev t) WIdle []) tbl) (MIdle None) 0 0 0 [] [] false None
        [] [].

  Inductive areach (tbl : list dstatus) : st -> Prop :=
  | ar_init : areach tbl (ainit tbl)
  | ar_step s l s' : areach tbl s -> astep s l s' -> areach tbl s'.

  (** Executions. *)
  Inductive aexec : st -> list alabel -> st -> Prop :=
  | ex_nil s : aexec s [] s
  | ex_cons s l s1 ls s2 : astep s l s1 -> aexec s1 ls s2 -> aexec s (l :: ls) s2.
End Async.
Arguments alabel R : clear implicits.

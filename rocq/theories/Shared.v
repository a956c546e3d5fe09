(** Several callers driving one StaticHybridScheduler at the same time (a
    scheduler is a shared_ptr and may be given to several DispatchedModels, or
    one DispatchedModel used from several threads).  Definitions only.

    Only the scheduler protocol of run_async is kept (DispatchedModel.cpp:511,
    564, 574, 556): [schedule_work], then [dispatched_work] for a count at most
    the returned size, later one [completed_work] for that count.  Each is
    atomic under the scheduler's mutex (AsyncScheduler.cpp:29-62). *)
From Verif Require Import Base Tensor Sched.

(** A caller: the (device, n) it got from schedule_work and has not yet used,
    and its chunks in flight. *)
Record caller : Type := mkCaller { c_pend : option (device * Z); c_held : list (device * Z) }.

Record shared : Type := mkShared { sh_tbl : list dstatus; sh_callers : list caller }.

Fixpoint set_nth {A} (i : nat) (x : A) (l : list A) : list A :=
  match l, i with
  | [], _ => []
  | _ :: l', O => x :: l'
  | y :: l', S i' => y :: set_nth i' x l'
  end.

Fixpoint remove_nth {A} (i : nat) (l : list A) : list A :=
  match l, i with
  | [], _ => []
  | _ :: l', O => l'
  | y :: l', S i' => y :: remove_nth i' l'
  end.

Inductive shared_label : Type :=
| ShSchedule (i : nat)            (* caller i returns from schedule_work *)
| ShDispatch (i : nat) (count : Z)  (* caller i: dispatched_work(d, count) *)
| ShAbandon (i : nat)             (* caller i saw a failure and stops (run_async:516-520) *)
| ShComplete (i j : nat).         (* caller i's j-th chunk: completed_work *)

(** One atomic action; [None]: not enabled, [Some (Err e)]: the scheduler threw. *)
Definition shared_step (s : shared) (l : shared_label) : option (result shared) :=
  match l with
  | ShSchedule i =>
      match nth_error (sh_callers s) i with
      | Some (mkCaller None held) =>
          match schedule_work_impl (sh_tbl s) with
          | Some dn => Some (Ok (mkShared (sh_tbl s)
                                  (set_nth i (mkCaller (Some dn) held) (sh_callers s))))
          | None => None
          end
      | _ => None
      end
  | ShDispatch i count =>
      match nth_error (sh_callers s) i with
      | Some (mkCaller (Some (d, n)) held) =>
          if (0 <=? count)%Z && (count <=? n)%Z then
            Some (let* t := dispatched_work_impl (sh_tbl s) d count in
                  Ok (mkShared t (set_nth i (mkCaller None ((d, count) :: held)) (sh_callers s))))
          else None
      | _ => None
      end
  | ShAbandon i =>
      match nth_error (sh_callers s) i with
      | Some (mkCaller (Some _) held) =>
          Some (Ok (mkShared (sh_tbl s) (set_nth i (mkCaller None held) (sh_callers s))))
      | _ => None
      end
  | ShComplete i j =>
      match nth_error (sh_callers s) i with
      | Some (mkCaller p held) =>
          match nth_error held j with
          | Some (d, c) =>
              Some (let* t := completed_work_impl (sh_tbl s) d c in
                    Ok (mkShared t (set_nth i (mkCaller p (remove_nth j held)) (sh_callers s))))
          | None => None
          end
      | None => None
      end
  end.

(** [k] callers on an idle scheduler. *)
Definition shared_init (tbl : list dstatus) (k : nat) : shared :=
  mkShared tbl (repeat (mkCaller None []) k).

Inductive shared_reach (tbl : list dstatus) (k : nat) : shared -> Prop :=
| shr_init : shared_reach tbl k (shared_init tbl k)
| shr_step s l s' : shared_reach tbl k s -> shared_step s l = Some (Ok s') ->
    shared_reach tbl k s'.

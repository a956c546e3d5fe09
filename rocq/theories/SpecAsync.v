(** Specification vocabulary for asynchronous dispatch. *)
From Verif Require Import Base Tensor Spec Sched Async.
Local Open Scope Z_scope.

(** Rows of device [d] in a list of tasks. *)
Fixpoint rows_on (d : device) (l : list task) : Z :=
  match l with
  | [] => 0
  | tk :: l' => (if device_eqb (tk_dev tk) d then tk_count tk else 0) + rows_on d l'
  end.

(** The chunks handed to a worker and not yet reported complete: the one it is
    working on and the queued ones. *)
Definition outstanding {R} (w : worker R) : list task :=
  match w_pc w with
  | WRun tk | WRecord tk _ | WDone tk | WCrash tk => tk :: w_queue w
  | _ => w_queue w
  end.

(** The chunk counted by the scheduler while the dispatch thread is between
    dispatched_work and the hand-over (or its roll-back). *)
Definition handing {R} (m : main_pc R) : list task :=
  match m with MEnq tk | MRollback tk _ => [tk] | _ => [] end.

Definition rows_out {R} (s : astate R) (d : device) : Z :=
  rows_on d (handing (a_main s) ++ flat_map outstanding (a_workers s)).

(** The load the scheduler records for a device. *)
Definition load_is (tbl : list dstatus) (d : device) (n : Z) : Prop :=
  exists t, In t tbl /\ ds_dev t = d /\ ds_load t = n.

(** A thread moving of its own accord. *)
Definition spurious {R} (l : alabel R) : bool :=
  match l with LSpurMain | LSpurWorker _ => true | _ => false end.
Definition is_call {R} (l : alabel R) : bool :=
  match l with LCall _ => true | _ => false end.
Definition no_call {R} (ls : list (alabel R)) : Prop := forallb (fun l => negb (is_call l)) ls = true.
Definition spurs {R} (ls : list (alabel R)) : nat := length (filter spurious ls).

Definition in_call {R} (s : astate R) : Prop := forall o, a_main s <> MIdle o.

(** The number of chunks waiting in the queues or being worked on. *)
Definition handed {R} (s : astate R) : nat := length (flat_map outstanding (a_workers s)).

(** [launches run s ls s' n]: an execution in which [n] steps hand a chunk to a worker. *)
Inductive launches {R} (run : nat -> device -> Z -> Z -> result R -> Prop)
  : astate R -> list (alabel R) -> astate R -> nat -> Prop :=
| la_nil s : launches run s [] s 0
| la_cons s l s1 ls s2 n :
    astep run s l s1 -> launches run s1 ls s2 n ->
    launches run s (l :: ls) s2 ((if Nat.ltb (handed s) (handed s1) then 1 else 0) + n).

(** The failures of a list of outcomes. *)
Definition failures {R} (l : list (task * result R)) : list exn :=
  flat_map (fun x => match snd x with Err e => [e] | Ok _ => [] end) l.

(** Ordered by batch position. *)
Fixpoint by_position {R} (l : list (task * result R)) : Prop :=
  match l with
  | [] => True
  | x :: l' => Forall (fun y => tk_start (fst x) + tk_count (fst x) <= tk_start (fst y)) l' /\ by_position l'
  end.

(** The exception a set of failures is reported as. *)
Definition reported (es : list exn) (e : exn) : Prop :=
  es = [e] \/ (exists e1 e2 es', es = e1 :: e2 :: es' /\ e = Aggregate es).

(** The out-of-memory failures of the dispatch thread itself. *)
Definition dfails {R} (ls : list (alabel R)) : list exn :=
  flat_map (fun l => match l with LReserveFail e | LEnqFail e => [e] | _ => [] end) ls.

(** What the chunk evaluations of an execution ended with, in completion order. *)
Definition evaluated {R} (ls : list (alabel R)) : list (result R) :=
  flat_map (fun l => match l with LEval _ r => [r] | _ => [] end) ls.

(** A non-empty chunk inside the batch, for a device of the pool, no larger than
    that device's batch size. *)
Definition chunk_in (tbl : list dstatus) (b : Z) (tk : task) : Prop :=
  exists t, In t tbl /\ ds_dev t = tk_dev tk /\ 0 < tk_count tk <= ds_batch t /\
            0 <= tk_start tk /\ tk_start tk + tk_count tk <= b.

(** [finished_call run tbl k b ls out]: on a dispatcher over the pool [tbl], after
    any history, the [k]-th call is made with batch size [b], takes the steps [ls]
    and ends with [out]. *)
Definition finished_call {R} (run : nat -> device -> Z -> Z -> result R -> Prop)
           (tbl : list dstatus) (k : nat) (b : Z) (ls : list (alabel R))
           (out : result (list (option R))) : Prop :=
  exists s o s', areach run tbl s /\ a_main s = MIdle o /\ k = S (a_call s) /\ 0 <= b /\
                 aexec run (new_call s b) ls s' /\ no_call ls /\ a_main s' = MIdle (Some out).

(** In call [k] a chunk evaluation that returns, returns what [f] says. *)
Definition returns_only {R} (run : nat -> device -> Z -> Z -> result R -> Prop) (k : nat)
           (f : device -> Z -> Z -> result R) : Prop :=
  forall d s c v, run k d s c (Ok v) -> f d s c = Ok v.

(** In call [k] a chunk evaluation ends as [f] says. *)
Definition behaves_as {R} (run : nat -> device -> Z -> Z -> result R -> Prop) (k : nat)
           (f : device -> Z -> Z -> result R) : Prop :=
  forall d s c r, run k d s c r -> r = f d s c.

(** Specification vocabulary for the hybrid scheduler. *)
From Coq Require Import SpecFloat.
From Verif Require Import Base Tensor Sched.

(** Entry [i] of a per-device list: a single entry stands for every device. *)
Definition per_device {T} (l : list T) (i : nat) : option T :=
  match l with [x] => Some x | _ => nth_error l i end.

(** The documented constraints on a configuration (StaticHybridScheduler.h:62-78
    and the class comment: at most one CPU). *)
Record config_ok (parse : string -> result device) (c : config) : Prop :=
  { ok_devices : cf_devices c <> [];
    ok_batch_len : length (cf_batch_sizes c) = 1 \/ length (cf_batch_sizes c) = length (cf_devices c);
    ok_cap_len : cf_capacities c = [] \/ length (cf_capacities c) = 1 \/
                 length (cf_capacities c) = length (cf_devices c);
    ok_prio_len : cf_priorities c = [] \/ length (cf_priorities c) = 1 \/
                  length (cf_priorities c) = length (cf_devices c);
    ok_distinct : NoDup (cf_devices c);
    ok_parse : forall s, In s (cf_devices c) -> exists d, parse s = Ok d;
    ok_one_cpu : forall i j si sj di dj,
        nth_error (cf_devices c) i = Some si -> nth_error (cf_devices c) j = Some sj ->
        parse si = Ok di -> parse sj = Ok dj ->
        d_type di = "cpu"%string -> d_type dj = "cpu"%string -> i = j;
    ok_sizes : forall i, i < length (cf_devices c) ->
        exists b, per_device (cf_batch_sizes c) i = Some b /\ (0 < b)%Z /\
          (cf_capacities c = [] \/
           exists k, per_device (cf_capacities c) i = Some k /\ (b <= k)%Z) }.

(** The scheduler the configuration describes: one idle entry per device. *)
Definition table_of (parse : string -> result device) (c : config) (tbl : list dstatus) : Prop :=
  length tbl = length (cf_devices c) /\
  forall i s, nth_error tbl i = Some s ->
    (exists name, nth_error (cf_devices c) i = Some name /\ parse name = Ok (ds_dev s)) /\
    per_device (cf_batch_sizes c) i = Some (ds_batch s) /\
    (if Nat.eqb (length (cf_capacities c)) 0 then ds_cap s = ds_batch s
     else per_device (cf_capacities c) i = Some (ds_cap s)) /\
    (if Nat.eqb (length (cf_priorities c)) 0 then ds_prio s = f64_one
     else per_device (cf_priorities c) i = Some (ds_prio s)) /\
    ds_load s = 0%Z.

(** Device [s] can take another full chunk. *)
Definition room (s : dstatus) : Prop := (ds_load s + ds_batch s <= ds_cap s)%Z.

(** [a > b] and [a == b] on doubles. *)
Definition gt (a b : spec_float) : Prop := SFltb b a = true.
Definition feq (a b : spec_float) : Prop := SFeqb a b = true.

(** A table whose sizes are [size_t]s and whose loads cannot wrap around. *)
Definition table_ok (tbl : list dstatus) : Prop :=
  Forall (fun s => (0 <= ds_load s)%Z /\ (0 < ds_batch s)%Z /\ (ds_batch s <= ds_cap s)%Z /\
                   (ds_load s + ds_batch s < 2 ^ 64)%Z) tbl.

(** Idle table of an accepted configuration, small enough not to wrap around
    even with [k] callers. *)
Definition idle_table (tbl : list dstatus) (k : nat) : Prop :=
  NoDup (map ds_dev tbl) /\
  Forall (fun t => ds_load t = 0 /\ 0 < ds_batch t <= ds_cap t /\
                   ds_cap t + Z.of_nat k * ds_batch t < 2 ^ 64)%Z tbl.

(** The pool an accepted configuration describes, idle, with sizes that fit the
    signed 64-bit row counters. *)
Definition pool_ok (tbl : list dstatus) : Prop :=
  idle_table tbl 1 /\ Forall (fun t => (ds_batch t < 2 ^ 63)%Z) tbl.

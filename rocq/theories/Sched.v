(** dispatchers/StaticHybridScheduler.cpp.  Definitions only.

    [std::size_t] values are Z in [0, 2^64); additions on them are reduced
    modulo 2^64.  [double] priorities are Stdlib [spec_float]s compared with
    [SFltb], the IEEE 754 binary comparison. *)
From Coq Require Import SpecFloat.
From Verif Require Import Base Tensor.

Definition add64 (a b : Z) : Z := ((a + b) mod 2 ^ 64)%Z.

(** StaticHybridScheduler.h:90-97 [DeviceStatus]. *)
Record dstatus : Type := mkDS
  { ds_dev : device; ds_batch : Z; ds_cap : Z; ds_prio : spec_float; ds_load : Z }.

Definition with_load (s : dstatus) (l : Z) : dstatus :=
  mkDS (ds_dev s) (ds_batch s) (ds_cap s) (ds_prio s) l.

(** StaticHybridScheduler.h:62-78 [Config]. *)
Record config : Type := mkConfig
  { cf_devices : list string; cf_batch_sizes : list Z; cf_capacities : list Z;
    cf_priorities : list spec_float }.

(** StaticHybridScheduler.cpp:36-52 [broadcast]. *)
Definition broadcast {T} (v : list T) (n : nat) (what : string) : result (list T) :=
  let* _ := assert_ (Nat.eqb (length v) 1 || Nat.eqb (length v) n) what in
  if Nat.eqb (length v) n then Ok v
  else match v with
       | [] => Err (StdExn "front() of an empty vector")
       | x :: _ => Ok (repeat x n)
       end.

(** 1.0 *)
Definition f64_one : spec_float := S754_finite false (2 ^ 52) (-52).

Section Ctor.
  (** WorkScheduler.cpp:32-43 [parse_device]: c10's device-string parser, which
      throws on a malformed string.  Arbitrary. *)
  Variable parse : string -> result device.

  Definition is_cpu (d : device) : bool := String.eqb (d_type d) "cpu".

  (** StaticHybridScheduler.cpp:67-101, the loop body for device [i] and the
      rest of the loop; [seen], [cpus] are the loop's accumulators. *)
  Fixpoint build (seen : list string) (cpus : nat)
           (devs : list string) (bs caps : list Z) (prios : list spec_float)
    : result (list dstatus) :=
    match devs, bs, caps, prios with
    | [], _, _, _ => Ok []
    | name :: devs', b :: bs', c :: caps', p :: prios' =>
        let* _ := assert_ (negb (existsb (String.eqb name) seen)) "duplicate device" in
        let* d := parse name in
        let cpus' := if is_cpu d then S cpus else cpus in
        let* _ := assert_ (negb (is_cpu d) || Nat.eqb cpus' 1) "more than one CPU" in
        let* _ := assert_ (0 <? b)%Z "batch_size 0" in
        let* _ := assert_ (b <=? c)%Z "capacity is smaller than batch_size" in
        let* d2 := parse name in
        let* rest := build (name :: seen) cpus' devs' bs' caps' prios' in
        Ok (mkDS d2 b c p 0 :: rest)
    | _, _, _, _ => Err (StdExn "vector index out of range")
    end.

  (** StaticHybridScheduler.cpp:54-102, the constructor. *)
  Definition make_hybrid (cfg : config) : result (list dstatus) :=
    let n := length (cf_devices cfg) in
    let* _ := assert_ (Nat.ltb 0 n) "devices must be non-empty" in
    let* _ := assert_ (negb (Nat.eqb (length (cf_batch_sizes cfg)) 0))
                      "batch_sizes must be non-empty" in
    let* bs := broadcast (cf_batch_sizes cfg) n "batch_sizes" in
    let* caps := (if Nat.eqb (length (cf_capacities cfg)) 0 then Ok bs
                  else broadcast (cf_capacities cfg) n "capacities") in
    let* prios := (if Nat.eqb (length (cf_priorities cfg)) 0 then Ok (repeat f64_one n)
                   else broadcast (cf_priorities cfg) n "priorities") in
    build [] 0 (cf_devices cfg) bs caps prios.
End Ctor.

(** StaticHybridScheduler.cpp:110: [s.load + s.batch_size <= s.capacity]. *)
Definition has_room (s : dstatus) : bool := (add64 (ds_load s) (ds_batch s) <=? ds_cap s)%Z.

(** StaticHybridScheduler.cpp:108-112, the selection loop; [best] is the pointer. *)
Fixpoint select (best : option dstatus) (tbl : list dstatus) : option dstatus :=
  match tbl with
  | [] => best
  | s :: tbl' =>
      select (if has_room s then
                match best with
                | None => Some s
                | Some t => if SFltb (ds_prio t) (ds_prio s) then Some s else best
                end
              else best) tbl'
  end.

(** StaticHybridScheduler.cpp:104-120 [schedule_work_impl]: the device and chunk
    size chosen, [None] for "return false". *)
Definition schedule_work_impl (tbl : list dstatus) : option (device * Z) :=
  match select None tbl with
  | None => None
  | Some s => Some (ds_dev s, ds_batch s)
  end.

(** StaticHybridScheduler.cpp:122-132 [dispatched_work_impl]. *)
Fixpoint dispatched_work_impl (tbl : list dstatus) (d : device) (n : Z) : result (list dstatus) :=
  match tbl with
  | [] => Err (Fatal "dispatched_work for unknown device")
  | s :: tbl' =>
      if device_eqb (ds_dev s) d then Ok (with_load s (add64 (ds_load s) n) :: tbl')
      else let* r := dispatched_work_impl tbl' d n in Ok (s :: r)
  end.

(** StaticHybridScheduler.cpp:134-152 [completed_work_impl]. *)
Fixpoint completed_work_impl (tbl : list dstatus) (d : device) (n : Z) : result (list dstatus) :=
  match tbl with
  | [] => Err (Fatal "completed_work for unknown device")
  | s :: tbl' =>
      if device_eqb (ds_dev s) d then
        let* _ := assert_ (n <=? ds_load s)%Z "completed_work exceeds the outstanding load" in
        Ok (with_load s (ds_load s - n) :: tbl')
      else let* r := completed_work_impl tbl' d n in Ok (s :: r)
  end.

(** StaticHybridScheduler.cpp:154-161 [all_work_completed]. *)
Definition all_work_completed (tbl : list dstatus) : bool :=
  forallb (fun s => (ds_load s =? 0)%Z) tbl.

(** Properties C17-C19: the hybrid scheduler. *)
From Coq Require Import SpecFloat.
From Verif Require Import Base Tensor Sched SpecSched Shared SchedProofs SharedProofs.

(** Example devices and doubles. *)
Definition ex_parse (s : string) : result device :=
  if String.eqb s "cpu" then Ok cpu
  else if String.eqb s "cuda" then Ok (mkDev "cuda" (-1))
  else if String.eqb s "cuda:0" then Ok (cuda 0)
  else if String.eqb s "cuda:1" then Ok (cuda 1)
  else Err (StdExn "Invalid device string").
Definition f64_two : spec_float := S754_finite false (2 ^ 52) (-51).

(** * C17 *)

(** schedule_work picks, among the devices with room for one more full chunk,
    one whose priority no other beats; of several with the same priority the
    earliest; it has no answer (the caller blocks) exactly when none has room. *)
Theorem C17_greedy : forall tbl, table_ok tbl ->
  match schedule_work_impl tbl with
  | None => forall s, In s tbl -> ~ room s
  | Some (d, n) =>
      exists l1 t l2, tbl = l1 ++ t :: l2 /\ d = ds_dev t /\ n = ds_batch t /\ room t /\
        (forall s, In s tbl -> room s -> ~ gt (ds_prio s) (ds_prio t)) /\
        (forall s, In s l1 -> room s -> ~ feq (ds_prio s) (ds_prio t))
  end.
Proof. exact schedule_greedy. Qed.
Print Assumptions C17_greedy.

Example C17_case :
  let tbl := [mkDS cpu 2 4 f64_one 0; mkDS (cuda 0) 8 16 f64_two 8; mkDS (cuda 1) 8 16 f64_two 0;
              mkDS (cuda 2) 8 8 (S754_infinity false) 8]%Z in
  table_ok tbl /\ schedule_work_impl tbl = Some (cuda 0, 8%Z) /\
  schedule_work_impl [mkDS cpu 2 4 f64_one 3; mkDS (cuda 0) 8 16 f64_two 16]%Z = None.
Proof.
  split; [|split; vm_compute; reflexivity].
  repeat (apply Forall_cons; [cbn; lia|]). apply Forall_nil.
Qed.

(** A NaN priority is unordered, so whichever eligible device comes first is
    kept: the NaN device starves everyone behind it while it has room. *)
Example C17_nan :
  schedule_work_impl [mkDS cpu 2 4 S754_nan 0; mkDS (cuda 0) 8 16 f64_two 0]%Z = Some (cpu, 2%Z) /\
  schedule_work_impl [mkDS (cuda 0) 8 16 f64_two 0; mkDS cpu 2 4 S754_nan 0]%Z = Some (cuda 0, 8%Z).
Proof. split; vm_compute; reflexivity. Qed.

(** Finding: without [table_ok] the sum load + batch_size wraps around and a
    full device is chosen again (here: capacity 2^64 - 1, load at capacity). *)
Theorem C17_wraparound_refuted : exists s,
  (0 <= ds_load s < 2 ^ 64)%Z /\ (0 < ds_batch s <= ds_cap s)%Z /\ (ds_cap s < 2 ^ 64)%Z /\
  ~ room s /\ schedule_work_impl [s] = Some (ds_dev s, ds_batch s).
Proof.
  exists (mkDS cpu 2 (2 ^ 64 - 1) f64_one (2 ^ 64 - 1))%Z. unfold room. cbn [ds_load ds_batch ds_cap].
  repeat split; try lia; vm_compute; intuition congruence.
Qed.
Print Assumptions C17_wraparound_refuted.

(** * C18 *)

(** The constructor accepts exactly the documented configurations and then
    builds the table they describe.  [parse] is any device-string parser. *)
Theorem C18_accepts_iff : forall parse cfg,
  match make_hybrid parse cfg with
  | Ok tbl => config_ok parse cfg /\ table_of parse cfg tbl
  | Err _ => ~ config_ok parse cfg
  end.
Proof. exact make_hybrid_spec. Qed.
Print Assumptions C18_accepts_iff.

(** An idle accepted pool can always take a chunk. *)
Theorem C18_idle_pool_has_room : forall parse cfg tbl,
  make_hybrid parse cfg = Ok tbl ->
  (forall b, In b (cf_batch_sizes cfg) -> (b < 2 ^ 64)%Z) ->
  schedule_work_impl tbl <> None.
Proof. exact idle_pool_has_room. Qed.
Print Assumptions C18_idle_pool_has_room.

Example C18_case :
  make_hybrid ex_parse (mkConfig ["cpu"; "cuda:1"]%string [4%Z] [4; 9]%Z []) =
  Ok [mkDS cpu 4 4 f64_one 0; mkDS (cuda 1) 4 9 f64_one 0]%Z /\
  config_ok ex_parse (mkConfig ["cpu"; "cuda:1"]%string [4%Z] [4; 9]%Z []) /\
  is_ok (make_hybrid ex_parse (mkConfig ["cpu"; "cpu"]%string [4%Z] [] [])) = false /\
  is_ok (make_hybrid ex_parse (mkConfig ["cpu"; "cuda:1"]%string [4; 5]%Z [4%Z] [])) = false.
Proof.
  split; [vm_compute; reflexivity|]. split; [|split; vm_compute; reflexivity].
  exact (proj1 (make_hybrid_spec ex_parse (mkConfig ["cpu"; "cuda:1"]%string [4%Z] [4; 9]%Z []))).
Qed.

(** Finding: distinctness is checked on the strings, so two names of one GPU
    are both accepted as separate devices with separate capacities.  They are
    different [at::Device] values although torch resolves both to GPU 0. *)
Theorem C18_device_alias_refuted :
  exists tbl, make_hybrid ex_parse (mkConfig ["cuda"; "cuda:0"]%string [8%Z] [] []) = Ok tbl /\
    map ds_dev tbl = [mkDev "cuda" (-1); cuda 0].
Proof. eexists. split; vm_compute; reflexivity. Qed.
Print Assumptions C18_device_alias_refuted.

(** * C19 *)

(** With [k] callers on one scheduler, in every interleaving, the load of each
    device stays within its capacity plus one chunk for every other caller,
    and the scheduler's assertions never fire.  With a single caller this is
    the capacity itself. *)
Theorem C19_load_bound : forall tbl k s, idle_table tbl k -> shared_reach tbl k s ->
  (forall t, In t (sh_tbl s) ->
     (0 <= ds_load t <= ds_cap t + (Z.of_nat k - 1) * ds_batch t)%Z) /\
  (forall l e, shared_step s l <> Some (Err e)).
Proof. exact shared_load_bound. Qed.
Print Assumptions C19_load_bound.

Example C19_hypotheses : idle_table [mkDS cpu 4 4 f64_one 0; mkDS (cuda 0) 4 9 f64_two 0]%Z 3.
Proof.
  split.
  - cbn [map ds_dev].
    repeat (apply NoDup_cons; [cbn; unfold cpu, cuda; intuition congruence|]). apply NoDup_nil.
  - repeat (apply Forall_cons; [cbn; lia|]). apply Forall_nil.
Qed.

(** Run a list of labels. *)
Fixpoint shared_run (s : shared) (ls : list shared_label) : option shared :=
  match ls with
  | [] => Some s
  | l :: ls' => match shared_step s l with Some (Ok s') => shared_run s' ls' | _ => None end
  end.
Lemma shared_run_reach tbl k ls : forall s s', shared_reach tbl k s ->
  shared_run s ls = Some s' -> shared_reach tbl k s'.
Proof.
  induction ls as [|l ls IH]; intros s s' Hr H; cbn in H; [injection H as <-; exact Hr|].
  destruct (shared_step s l) as [[s1|]|] eqn:E; try discriminate.
  eapply IH; [|exact H]. eapply shr_step; eauto.
Qed.

(** Finding: two callers that both return from schedule_work before either
    calls dispatched_work put twice the capacity on a device; the bound of
    [C19_load_bound] is attained. *)
Theorem C19_capacity_refuted : exists tbl s t,
  idle_table tbl 2 /\ shared_reach tbl 2 s /\ In t (sh_tbl s) /\
  (ds_cap t < ds_load t)%Z /\ (ds_load t = ds_cap t + (2 - 1) * ds_batch t)%Z.
Proof.
  set (tbl := [mkDS (cuda 0) 4 4 f64_one 0]%Z).
  exists tbl, (mkShared [mkDS (cuda 0) 4 4 f64_one 8]%Z
                 [mkCaller None [(cuda 0, 4%Z)]; mkCaller None [(cuda 0, 4%Z)]]),
         (mkDS (cuda 0) 4 4 f64_one 8)%Z.
  split; [|split; [|split; [|split]]].
  - split; [apply NoDup_cons; [intros []|apply NoDup_nil]|].
    apply Forall_cons; [cbn; lia|apply Forall_nil].
  - apply (shared_run_reach tbl 2 [ShSchedule 0; ShSchedule 1; ShDispatch 0 4; ShDispatch 1 4]%nat%Z
             (shared_init tbl 2)); [apply shr_init|]. vm_compute. reflexivity.
  - left. reflexivity.
  - cbn. lia.
  - cbn. lia.
Qed.
Print Assumptions C19_capacity_refuted.

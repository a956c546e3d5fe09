(** C64: the embedded interpreter is started once and Python runs only under the GIL. *)
From Verif Require Import Base Interp SpecInterp InterpProofs Example_Interp.

(** Who has the GIL when the first constructor runs. *)
Definition first_holder (hosted : bool) (inside : option nat) (programs : list (list (list move))) : option nat :=
  i_gil (istart hosted inside programs).

(** Whatever the interleaving, and whether or not the streams can be set up: at most one interpreter is started, and
    none where the host has one; the GIL changes hands properly; no Python runs without it or before there is an
    interpreter. *)
Theorem C64_discipline stdio hosted inside programs ls s :
  iexec stdio (istart hosted inside programs) ls s ->
  disciplined hosted (first_holder hosted inside programs) ls /\ inits ls <= 1 /\ (hosted = true -> inits ls = 0).
Proof.
  intros R. split; [exact (exec_disciplined _ _ _ _ _ _ R)|]. split; [exact (exec_inits _ _ _ _ _ _ R)|].
  intros ->. rewrite (v_count _ _ _ _ _ (exec_inv _ _ _ _ _ _ R)). cbn. destruct (i_py s); reflexivity.
Qed.
Print Assumptions C64_discipline.

(** With the streams set up, every run is finite, and one that cannot go on has finished: no thread waits for ever,
    mutex and GIL are free, and every thread ran exactly its own Python (and the set-up, if it started the
    interpreter). *)
Theorem C64_completes hosted inside programs ls s :
  iexec true (istart hosted inside programs) ls s ->
  length ls <= work programs /\
  (stuck true s ->
     finished s /\ length (i_threads s) = length programs /\ i_mutex s = None /\ i_gil s = None /\
     forall i p, nth_error programs i = Some p -> python_of i ls = python_in p + started_by i ls).
Proof.
  intros R. split.
  - pose proof (exec_less true hosted inside programs ls s R) as L. pose proof (total_work hosted inside programs) as W. cbn zeta in *. lia.
  - intros St. destruct (stuck_finished true hosted inside programs ls s eq_refl R St) as (F & M & G).
    split; [exact F|]. split; [exact (exec_threads true hosted inside programs ls s R)|]. split; [exact M|]. split; [exact G|].
    intros i p E. exact (finished_python true hosted inside programs ls s i p eq_refl R St E).
Qed.
Print Assumptions C64_completes.

(** Without: the exception leaves the constructor with the GIL held by its thread, and another thread's constructor,
    finding an interpreter, waits for ever. *)
Theorem C64_failed_setup_refuted :
  exists ls s, iexec false (istart false None two) ls s /\ stuck false s /\ i_gil s = Some 0 /\
    map t_pc (i_threads s) = [IFailed; IEnsure].
Proof.
  destruct (follow false (istart false None two) fail_sched) as [[ls s]|] eqn:E; [|discriminate].
  exists ls, s. split; [exact (follow_exec _ _ _ [] _ _ _ (ix_start _ _) E)|].
  vm_compute in E. injection E as <- <-. split; [|split; reflexivity].
  intros [|[|i]]; [reflexivity|reflexivity|]. unfold istep. cbn [i_threads nth_error]. destruct i; reflexivity.
Qed.
Print Assumptions C64_failed_setup_refuted.

(** A run of two threads in a C++ host to its end. *)
Example C64_case : exists ls s, iexec true (istart false None two) ls s /\ stuck true s /\
  inits ls = 1 /\ map t_pc (i_threads s) = [IDone; IDone] /\ python_of 0 ls = 3 /\ python_of 1 ls = 2.
Proof.
  destruct (follow true (istart false None two) two_sched) as [[ls s]|] eqn:E; [|vm_compute in E; discriminate].
  exists ls, s. split; [exact (follow_exec _ _ _ [] _ _ _ (ix_start _ _) E)|].
  vm_compute in E. injection E as <- <-. split; [|repeat split; reflexivity].
  intros [|[|i]]; [reflexivity|reflexivity|]. unfold istep. cbn [i_threads nth_error]. destruct i; reflexivity.
Qed.
(** A host that runs Python: thread 1 calls from within, thread 0 waits for it to let go. *)
Example C64_hosted_case : exists ls s, iexec true (istart true (Some 1) two) ls s /\ stuck true s /\
  inits ls = 0 /\ first_holder true (Some 1) two = Some 1 /\ python_of 0 ls = 2 /\ python_of 1 ls = 2.
Proof.
  destruct (follow true (istart true (Some 1) two) [0;0;0; 1;1;1;1;1;1;1;1;1;1;1; 0;0;0;0;0;0;0;0]) as [[ls s]|] eqn:E; [|vm_compute in E; discriminate].
  exists ls, s. split; [exact (follow_exec _ _ _ [] _ _ _ (ix_start _ _) E)|].
  vm_compute in E. injection E as <- <-. split; [|repeat split; reflexivity].
  intros [|[|i]]; [reflexivity|reflexivity|]. unfold istep. cbn [i_threads nth_error]. destruct i; reflexivity.
Qed.

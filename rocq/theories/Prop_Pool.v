(** Property C16: the worker pool. *)
From Verif Require Import Base Tensor Shared Pool SpecPool PoolProofs.

(** At every moment the tasks worker [i] has run are, in order and each once, a
    prefix of those accepted for its device. *)
Theorem C16_fifo_once : forall T devs (ls : list (plabel T)) s i d,
  NoDup devs -> pexec (pinit devs) ls s -> nth_error devs i = Some d ->
  exists rest, accepted d ls = ran i ls ++ rest.
Proof. intros T devs ls s i d Hnd. exact (pool_fifo devs Hnd ls s i d). Qed.
Print Assumptions C16_fifo_once.

(** When stop_pool has returned, every task accepted has been run, ... *)
Theorem C16_drained : forall T devs (ls : list (plabel T)) s i d,
  NoDup devs -> pexec (pinit devs) ls s -> p_owner s = ODone -> nth_error devs i = Some d ->
  ran i ls = accepted d ls.
Proof. intros T devs ls s i d Hnd. exact (pool_drained devs Hnd ls s i d). Qed.
Print Assumptions C16_drained.

(** ... and every worker has returned. *)
Theorem C16_exited : forall T devs (ls : list (plabel T)) s w,
  NoDup devs -> pexec (pinit devs) ls s -> p_owner s = ODone -> In w (p_workers s) ->
  pw_pc w = PExit /\ pw_queue w = [].
Proof. intros T devs ls s w Hnd. exact (pool_exited devs Hnd ls s w). Qed.
Print Assumptions C16_exited.

(** While enqueue or stop_pool is running, or some task waits or runs, a thread
    other than the pool's user can move, without a spurious wake-up. *)
Theorem C16_no_deadlock : forall T devs (ls : list (plabel T)) s,
  NoDup devs -> pexec (pinit devs) ls s ->
  ((p_owner s <> OFree /\ p_owner s <> ODone) \/
   (exists w, In w (p_workers s) /\ (pw_queue w <> [] \/ exists t, pw_pc w = PRun t))) ->
  exists l s', pstep s l s' /\ p_spurious l = false /\ l <> PStop /\
               (forall d t, l <> PEnq d t /\ l <> PEnqBad d t).
Proof. intros T devs ls s Hnd. exact (pool_progress devs Hnd ls s). Qed.
Print Assumptions C16_no_deadlock.

(** After shutdown is requested the pool takes a bounded number of steps. *)
Theorem C16_shutdown_bounded : forall T devs (ls1 : list (plabel T)) s1 ls s2,
  NoDup devs -> pexec (pinit devs) ls1 s1 -> p_stop s1 = true -> pexec s1 ls s2 ->
  length ls <= 4 * length devs + 2 * length (flat_map pw_queue (p_workers s1)) + 3 + 2 * p_spurs ls.
Proof. intros T devs ls1 s1 ls s2 Hnd. exact (shutdown_bound devs Hnd ls1 s1 ls s2). Qed.
Print Assumptions C16_shutdown_bounded.

(** Two devices, three tasks; shutdown is requested while the first worker is
    inside a task with another one queued. *)
Definition ex_pool_trace : list (plabel nat) :=
  [PWorker 0; PEnq cpu 7; POwner; PEnq (cuda 0) 8; POwner; PWorker 0; PEnq cpu 9; POwner;
   PStop; POwner; PTask 0 7; PWorker 1; PTask 1 8; PWorker 0; PTask 0 9; PWorker 0; PWorker 1;
   POwner; POwner; POwner].
Example C16_case :
  NoDup [cpu; cuda 0] /\
  exists s, pexec (pinit [cpu; cuda 0]) ex_pool_trace s /\ p_owner s = ODone /\
            ran 0 ex_pool_trace = [7; 9] /\ ran 1 ex_pool_trace = [8].
Proof.
  split.
  { apply NoDup_cons; [|apply NoDup_cons; [intros []|apply NoDup_nil]]. intros [H|[]]. discriminate. }
  assert (forall (ls : list (plabel nat)) (s s1 s2 : pstate nat) l,
             pexec s ls s1 -> pstep s1 l s2 -> pexec s (ls ++ [l]) s2) as Hs by (intros; econstructor; eauto).
  eexists. split; [|split; [|split; reflexivity]].
  - assert (forall s, pexec s ([] : list (plabel nat)) s) as H by constructor.
    specialize (H (pinit [cpu; cuda 0])).
    let step c := (eapply Hs in H; [|c]; cbn in H) in
    step ltac:(eapply (ps_worker _ 0); reflexivity);
    step ltac:(eapply (ps_enq _ cpu 7); reflexivity);
    step ltac:(eapply ps_notify; reflexivity);
    step ltac:(eapply (ps_enq _ (cuda 0) 8); reflexivity);
    step ltac:(eapply ps_notify; reflexivity);
    step ltac:(eapply (ps_worker _ 0); reflexivity);
    step ltac:(eapply (ps_enq _ cpu 9); reflexivity);
    step ltac:(eapply ps_notify; reflexivity);
    step ltac:(eapply ps_stop; [reflexivity|discriminate]);
    step ltac:(eapply ps_stop_notify; reflexivity);
    step ltac:(eapply (ps_task _ 0); reflexivity);
    step ltac:(eapply (ps_worker _ 1); reflexivity);
    step ltac:(eapply (ps_task _ 1); reflexivity);
    step ltac:(eapply (ps_worker _ 0); reflexivity);
    step ltac:(eapply (ps_task _ 0); reflexivity);
    step ltac:(eapply (ps_worker _ 0); reflexivity);
    step ltac:(eapply (ps_worker _ 1); reflexivity);
    step ltac:(eapply ps_join; reflexivity);
    step ltac:(eapply ps_join; reflexivity);
    step ltac:(eapply ps_join_end; reflexivity).
    exact H.
  - reflexivity.
Qed.

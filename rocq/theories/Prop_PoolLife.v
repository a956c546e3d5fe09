(** Property C79: a dispatcher and its threads live and end together. *)
From Verif Require Import Base Tensor TensorProofs Shared Pool SpecPool PoolProofs PoolLife SpecPoolLife PoolLifeProofs.

(** However the threads already started run while the others are being made, a dispatcher that has been constructed has one Model
    for each device of its scheduler and, with an asynchronous scheduler, a thread for each; and what its pool has done and will
    do is what the pool of C16 may do, with all threads there from the start. *)
Theorem C79_built : forall T before async devs (ls : list (llabel T)) s o, lexec before async (linit devs) ls s -> l_pc s = Own o ->
  (NoDup (l_models s) /\ forall x, In x (l_models s) <-> In x devs) /\
  let ds := map fst (l_threads s) in ds = (if async then l_models s else []) /\
  exists p, pexec (pinit ds) (in_pool ls) p /\ p_owner p = o /\ p_stop p = l_stop s /\ length (p_workers p) = length ds /\
    forall i d pc, nth_error (l_threads s) i = Some (d, pc) -> exists q, queue_at d (l_queues s) = Some q /\ nth_error (p_workers p) i = Some (mkPW d pc q).
Proof.
  intros T before async devs ls s o X Ep. destruct (inv_own async devs s ls o (inv_exec before async devs ls s X) Ep) as ([N M] & K & Al & P).
  assert (E : map fst (l_threads s) = map fst (l_queues s)) by (unfold aligned in Al; rewrite app_nil_r in Al; exact Al).
  split; [split; assumption|]. split; [rewrite E; exact K|]. rewrite E. exists (pool_of s). split; [exact P|]. split; [unfold pool_of; cbn; rewrite Ep; reflexivity|]. split; [reflexivity|].
  split; [unfold pool_of; cbn; rewrite seen_length, map_length; reflexivity|].
  intros i d pc H. destruct (seen_nth _ _ _ _ _ _ Al H) as (q & Hq & Hw). exists q. split; [|exact Hw]. apply queue_at_nth with (i := i); [|exact Hq]. rewrite K. destruct async; [exact N|constructor].
Qed.
Print Assumptions C79_built.

(** A thread that has not returned finds its queue and its Model, at every moment of the life; the map of queues is not being
    changed then, so that no thread reads it in the middle of a change. *)
Theorem C79_provided : forall T before async devs (ls : list (llabel T)) s d pc, lexec before async (linit devs) ls s -> alive (l_pc s) = true ->
  In (d, pc) (l_threads s) -> pc <> PExit -> In d (l_models s) /\ (exists q, queue_at d (l_queues s) = Some q) /\ forall x r, l_pc s <> BQueue x r.
Proof.
  intros T before async devs ls s d pc X A I Np. apply In_nth_error in I. destruct I as [i Hi].
  destruct (moving async devs s ls i d pc (inv_exec before async devs ls s X) A Hi Np) as (C & [rest Al] & N & M). split; [exact M|].
  split; [|intros x r E; destruct C as [[o C]|[r' C]]; rewrite C in E; discriminate]. destruct (seen_nth _ _ _ _ _ _ Al Hi) as (q & Hq & _). exists q. exact (queue_at_nth _ _ _ _ N Hq).
Qed.
Print Assumptions C79_provided.

(** Nothing is undefined, and std::terminate is called only when the construction of a dispatcher with threads for several devices
    fails. *)
Theorem C79_defined : forall T before async devs (ls : list (llabel T)) s, lexec before async (linit devs) ls s ->
  l_pc s <> Undefined /\ (l_pc s = Terminated -> async = true /\ failing ls /\ exists a b, In a devs /\ In b devs /\ a <> b).
Proof.
  intros T before async devs ls s X. pose proof (inv_exec before async devs ls s X) as H. unfold inv in H. split.
  - intros E. rewrite E in H. exact H.
  - intros E. rewrite E in H. exact H.
Qed.
Print Assumptions C79_defined.

(** Where it is not, the exception that ended the construction is raised, and neither threads nor Models remain. *)
Theorem C79_raises : forall T before async devs (ls : list (llabel T)) s e, lexec before async (linit devs) ls s -> raised e ls ->
  async = false \/ (forall a b, In a devs -> In b devs -> a = b) -> l_pc s = Thrown e /\ l_threads s = [] /\ l_models s = [] /\ l_queues s = [].
Proof.
  intros T before async devs ls s e X R C. pose proof (inv_exec before async devs ls s X) as H. unfold inv in H. destruct (raised_end before async devs ls s e X R) as [E|E]; rewrite E in H.
  - destruct H as (M & Q & Th & _). repeat split; assumption.
  - destruct H as (Ea & _ & a & b & Ia & Ib & Nab). destruct C as [C|C]; [rewrite C in Ea; discriminate|destruct (Nab (C a b Ia Ib))].
Qed.
Print Assumptions C79_raises.
(** A constructor that has thrown has thrown what was raised in it, and has left nothing. *)
Theorem C79_thrown : forall T before async devs (ls : list (llabel T)) s e, lexec before async (linit devs) ls s -> l_pc s = Thrown e ->
  raised e ls /\ l_threads s = [] /\ l_models s = [] /\ l_queues s = [].
Proof.
  intros T before async devs ls s e X E. pose proof (inv_exec before async devs ls s X) as H. unfold inv in H. rewrite E in H. destruct H as (M & Q & Th & R). repeat split; assumption.
Qed.
Print Assumptions C79_thrown.

(** When the destructor has returned, every thread has, and each has run the tasks given to its device, in order. *)
Theorem C79_gone : forall T before async devs (ls : list (llabel T)) s, lexec before async (linit devs) ls s -> l_pc s = Gone ->
  (forall d pc, In (d, pc) (l_threads s) -> pc = PExit) /\ forall i d pc, nth_error (l_threads s) i = Some (d, pc) -> ran i (in_pool ls) = accepted d (in_pool ls).
Proof.
  intros T before async devs ls s X E. pose proof (inv_exec before async devs ls s X) as H. unfold inv in H. rewrite E in H. destruct H as (_ & _ & F & l & _ & K & R).
  rewrite Forall_forall in F. split; [intros d pc I; exact (F _ I)|]. intros i d pc Hi. apply R. rewrite <- K, nth_error_map, Hi. reflexivity.
Qed.
Print Assumptions C79_gone.

(** The construction goes on until it is done, and takes at most four steps for each device and four more. *)
Theorem C79_construction_ends : forall T before async devs (ls : list (llabel T)) s, lexec before async (linit devs) ls s ->
  makes ls <= 4 * length devs + 4 /\ (alive (l_pc s) = true -> built s \/ l_pc s = Gone \/ exists s', lstep before async s LMake s').
Proof.
  intros T before async devs ls s X. split; [pose proof (makes_bound before async devs ls s X); lia|]. intros A.
  destruct (l_pc s) as [[|d r]|[|d r]|d r| |[|d r]|o| | | |] eqn:Ep; try discriminate A; [| | | | | | | |left; exists o; exact Ep|right; left; reflexivity]; right; right; eexists; apply ls_make; unfold make; rewrite Ep; reflexivity.
Qed.
Print Assumptions C79_construction_ends.

(** * What does not hold *)

(** When a thread cannot be made after another has been, the process ends: the exception of std::thread (std::system_error, no
    more threads allowed) never reaches the caller. *)
Theorem C79_thread_refuted : forall T before a b e, a <> b -> exists (ls : list (llabel T)) s, lexec before true (linit [a; b]) ls s /\ raised e ls /\ l_pc s = Terminated.
Proof.
  intros T before a b e N. exists (repeat LMake 10 ++ [LFail e]).
  assert (Eab : device_eqb b a = false) by (destruct (device_eqb b a) eqn:E; [apply device_eqb_eq in E; congruence|reflexivity]).
  destruct (before b a) eqn:Eb; eexists; (split; [|split; [apply in_or_app; right; left; reflexivity|]]); cbn [repeat app].
  1,3: do 10 (eapply lx_cons; [apply ls_make; unfold make, emplace; cbn; rewrite ?Eab, ?Eb; cbn; rewrite ?Eb; reflexivity|]); eapply lx_cons; [apply ls_fail; reflexivity|constructor].
  all: reflexivity.
Qed.
Print Assumptions C79_thread_refuted.
(** The same at every such moment, whatever the devices. *)
Theorem C79_later_thread_refuted : forall T before async (s s' : life T) d r e, l_pc s = BSpawn (d :: r) -> l_threads s <> [] -> lstep before async s (LFail e) s' -> l_pc s' = Terminated.
Proof.
  intros T before async s s' d r e Ep Th St. inversion St as [|? ? M| | | | | | | | | | | |]; subst. unfold unwind. destruct (l_threads s); [congruence|reflexivity].
Qed.
Print Assumptions C79_later_thread_refuted.

(** Two devices, one named twice.  The first thread looks at its queue and falls asleep before the second thread is made; then a
    task for each device, the end requested while neither has run, and the destructor. *)
Definition lx_order (a b : device) : bool := device_eqb a cpu.
Definition lx_trace : list (llabel nat) :=
  repeat LMake 11 ++ [LPool (PWorker 0); LMake; LMake; LPool (PEnq (cuda 0) 8); LPool POwner; LPool (PWorker 1); LPool (PEnq cpu 7); LPool (PWorker 0); LPool POwner; LPool PStop;
    LPool (PTask 1 8); LPool POwner; LPool (PWorker 1); LPool (PTask 0 7); LPool (PWorker 0); LPool POwner; LPool POwner; LPool POwner; LDestroy].
Ltac lx_step := first [apply ls_make; reflexivity | eapply ls_enq; reflexivity | apply ls_notify; reflexivity | apply ls_stop; [reflexivity|discriminate] | apply ls_stop_notify; reflexivity
  | eapply ls_join; reflexivity | eapply ls_join_end; reflexivity | apply ls_destroy; reflexivity | eapply ls_worker; reflexivity | eapply ls_task; reflexivity | eapply ls_spur; reflexivity].
Example C79_case : exists s, lexec lx_order true (linit [cuda 0; cpu; cuda 0]) lx_trace s /\ l_pc s = Gone /\ map fst (l_threads s) = [cpu; cuda 0] /\
  ran 0 (in_pool lx_trace) = [7] /\ ran 1 (in_pool lx_trace) = [8] /\ makes lx_trace = 13.
Proof.
  eexists. split; [unfold lx_trace; cbn [repeat app]; repeat (eapply lx_cons; [lx_step|cbn]); constructor|]. repeat split; reflexivity.
Qed.
(** In the middle of the construction: one thread asleep, the other not made yet. *)
Example C79_built_case : exists s, lexec lx_order true (linit [cuda 0; cpu; cuda 0]) (firstn 12 lx_trace) s /\ l_pc s = BSpawn [cuda 0] /\ In (cpu, PSleep) (l_threads s) /\
  exists s', lexec lx_order true (linit [cuda 0; cpu; cuda 0]) (firstn 15 lx_trace) s' /\ l_pc s' = Own ONotify.
Proof.
  eexists. split; [unfold lx_trace; cbn [repeat app firstn]; repeat (eapply lx_cons; [lx_step|cbn]); constructor|]. split; [reflexivity|]. split; [left; reflexivity|].
  eexists. split; [unfold lx_trace; cbn [repeat app firstn]; repeat (eapply lx_cons; [lx_step|cbn]); constructor|reflexivity].
Qed.
(** One device: no thread can be made. *)
Example C79_raises_case : exists s : life nat, lexec lx_order true (linit [cpu]) (repeat LMake 6 ++ [LFail (StdExn "Resource temporarily unavailable")]) s /\ l_pc s = Thrown (StdExn "Resource temporarily unavailable") /\ l_models s = [].
Proof. eexists. split; [cbn [repeat app]; do 6 (eapply lx_cons; [apply ls_make; reflexivity|cbn]); eapply lx_cons; [apply ls_fail; reflexivity|constructor]|]. split; reflexivity. Qed.

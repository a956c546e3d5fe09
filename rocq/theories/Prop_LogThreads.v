(** C67: logging from any number of threads is atomic, loses nothing and cannot deadlock. *)
From Verif Require Import Base Shared Log LogThreads SpecLogThreads LogThreadsProofs LogEndProofs Example_LogThreads.

(** The calls take effect one after the other. *)
Theorem C67_linear : forall body v programs ls g,
  gexec body (gstart v programs) ls g -> sequential (linit v) SDefault (history ls).
Proof.
  intros body v programs ls g X. destruct (inv_exec _ _ _ _ _ X) as (_ & _ & _ & _ & a & k & R & _). exact (reach_sequential _ _ _ _ _ R).
Qed.

(** Every thread gets these answers, calls the sinks itself, and throws what they throw. *)
Theorem C67_programs : forall body v programs ls g i b c,
  gexec body (gstart v programs) ls g -> nth_error programs i = Some (b, c) -> acts body i [] c (seen_of i ls).
Proof. intros. eapply as_coded; eauto. Qed.

(** The sinks are given what is due, in each thread's order; the last line may still be on its way. *)
Theorem C67_delivery : forall body v programs ls g i,
  gexec body (gstart v programs) ls g ->
  exists rest, due_of i ls = given_by i ls ++ rest /\ length rest <= 1 /\ (ended g -> rest = []).
Proof.
  intros body v programs ls g i X. destruct (inv_exec _ _ _ _ _ X) as (_ & _ & _ & D & _). exists (match nth_error (g_threads g) i with Some t => pend t | None => [] end).
  split; [apply D|]. destruct (nth_error (g_threads g) i) as [t|] eqn:E; [|split; [cbn; lia|reflexivity]].
  unfold pend. split; [destruct (t_phase t); cbn; lia|]. intros F. rewrite (F t (nth_error_In _ _ E)). reflexivity.
Qed.

(** A sink is called without the mutex, and a Python one with the GIL. *)
Theorem C67_sinks : forall body v programs ls g i j s l line g',
  gexec body (gstart v programs) ls g -> gstep body g i = Some (GDeliver j s l line, g') ->
  j = i /\ g_mutex g' <> Some i /\ ((exists n, s = SPy n) -> g_gil g' = Some i).
Proof. exact sink_call. Qed.

(** If no thread can move, all have ended. *)
Theorem C67_no_deadlock : forall body v programs ls g,
  gexec body (gstart v programs) ls g -> stopped body g -> ended g.
Proof. exact free_to_go. Qed.

(** If the sinks do not emit and the programs end, every schedule ends. *)
Theorem C67_ends : forall body v programs B,
  (forall s l line, takes false B (body s l line)) -> Forall (fun p : bool * code => exists n, takes true n (snd p)) programs ->
  exists N, forall ls g, gexec body (gstart v programs) ls g -> length ls <= N.
Proof. intros body v programs B. exact (runs_end v body programs B). Qed.

Print Assumptions C67_linear.
Print Assumptions C67_programs.
Print Assumptions C67_delivery.
Print Assumptions C67_sinks.
Print Assumptions C67_no_deadlock.
Print Assumptions C67_ends.

(** The first run ends; the sink installed by the Python thread is called by the solver thread, and the exception of the
    second one is caught by the script. *)
Example C67_case : exists ls g, gexec bodies start ls g /\ ended g /\
  map (fun h => fst (fst h)) (history ls) =
    [CEmit Newton Warning "a"; CSetSink (Some (SPy 0)); CEmit Newton Warning "b"; CEmit Linear Warning "c";
     CLevel Newton; CLevel Newton; CSetSink (Some (SPy 1)); CEmit Linear Warning "d"; CResetSink] /\
  given_by 0 ls = [(SDefault, Warning, "[neml2:newton ][warn] a"%string); (SPy 0, Warning, "[neml2:newton ][warn] b"%string)] /\
  given_by 1 ls = [(SPy 0, Warning, "[neml2:linear ][warn] c"%string); (SPy 1, Warning, "[neml2:linear ][warn] d"%string)].
Proof.
  apply (seen_run start (follow bodies start sched)); [|exact run_seen].
  intros ls g. exact (follow_exec bodies start sched [] start ls g (gx_start _ _)).
Qed.
Example C67_hypotheses :
  (forall s l line, takes false 2 (bodies s l line)) /\ Forall (fun p : bool * code => exists n, takes true n (snd p)) duo.
Proof.
  split.
  - intros [|n|[|n]] l line; cbn; repeat (constructor; auto).
  - constructor; [exists 2|constructor; [exists 7|constructor]]; unfold worker, script; cbn [snd];
      repeat (first [apply tk_end|apply tk_yield|apply tk_call; [discriminate|intros [|]]]).
Qed.

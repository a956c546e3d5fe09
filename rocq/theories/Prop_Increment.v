(** Property C66: the steps of an implicit segment come from its own linearisation. *)
From Verif Require Import Base Tensor Float Newton SpecNewton Example_Newton Pack SpecPack Krylov SpecKrylov KrylovSystem SpecKrylovSystem
     Implicit SystemAoti SpecSolved SolvedProofs Example_Solved SpecIncrement IncrementProofs Example_Increment.

(** A segment that was solved got there by Newton steps from its initial guess.  Each is the segment's increment at the
    point it starts from: what the solve graph makes of the segment's Jacobian there, or the solution of a Krylov solve
    with its residual and its Jacobian action there and the preconditioner of the latest point the cache policy calls
    for.  No step was taken from a balanced point, and there are fewer than [miters] steps. *)
Theorem C66_segment : forall fsum cfg zero par capture s d st st',
  segment_ok s -> faithful s d -> run_implicit zero par capture (seg_of fsum cfg s) st = Ok st' ->
  exists st1 gs ps us0 calls dyn r0 us points its,
    prepare_solve zero par (seg_of fsum cfg s) st = (Ok (st1, gs, ps, us0), calls) /\
    pack_groups st' (ss_unknown_groups s) = Ok us /\
    ss_residual_graph s (us0 ++ gs ++ ps) = Ok r0 /\
    newton_path cfg s (fun _ _ => False) dyn d gs ps us0 points its us /\ length points <= cf_miters cfg - 1 /\
    Forall (fun v => exists r, ss_residual_graph s (v ++ gs ++ ps) = Ok r /\ ~ balanced fsum cfg (ss_residual_groups s) dyn r0 r) points /\
    exists r, ss_residual_graph s (us ++ gs ++ ps) = Ok r /\ balanced fsum cfg (ss_residual_groups s) dyn r0 r.
Proof. exact segment_path. Qed.
Print Assumptions C66_segment.

(** In masking mode the rows that met the tolerances after an earlier step stay where they are, and only they do. *)
Theorem C66_masked : forall fsum cfg zero par s d st st' m,
  segment_ok s -> faithful s d -> run_implicit_masked zero par (seg_of fsum cfg s) st = Ok (st', m) ->
  exists st1 gs ps us0 calls dyn r0 us points its,
    prepare_solve zero par (seg_of fsum cfg s) st = (Ok (st1, gs, ps, us0), calls) /\
    pack_groups st' (ss_unknown_groups s) = Ok us /\
    ss_residual_graph s (us0 ++ gs ++ ps) = Ok r0 /\
    newton_path cfg s (settled fsum cfg s gs ps r0) dyn d gs ps us0 points its us /\ length points <= cf_miters cfg - 1.
Proof. exact masked_segment_path. Qed.
Print Assumptions C66_masked.

(** Two rows, 2 u^2 = 8 and 2 u^2 = 50, with compiled graphs and with Krylov steps preconditioned by the first slope. *)
Example C66_runs : segment_ok vx_seg /\ faithful vx_seg cpu /\ is_ok (vk_run vx_seg) = true /\
  segment_ok vk_seg /\ faithful vk_seg cpu /\ is_ok (vk_run vk_seg) = true /\ is_ok (vk_run_masked vk_seg) = true.
Proof.
  split; [exact vx_ok|]. split; [exact I|]. split; [vm_compute; reflexivity|]. split; [exact vk_ok|]. split; [exact vk_faithful|].
  split; vm_compute; reflexivity.
Qed.
(** The second row starts from 50 and moves. *)
Example C66_moves : exists st', vk_run vk_seg = Ok st' /\
  (exists t, lookup "u" st' = Some t /\ nth_error (t_data t) 1 = Some (S754_finite false 5647839605440929 (-50))).
Proof. eexists. split; [vm_compute; reflexivity|]. eexists. split; reflexivity. Qed.

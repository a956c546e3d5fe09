(** Properties C30-C34 and C52: the Newton solver.
    [fsum], the order in which a row is summed, is universally quantified throughout. *)
From Verif Require Import Base Float Newton SpecNewton NewtonProofs MaskedProofs Example_Newton.

(** * C30 *)

(** Whatever the system: a returned iterate is solved, row by row. *)
Theorem C30_returned_converged : forall fsum cfg s u0 u k t,
  solve fsum cfg s u0 = (Ok (u, k), t) -> solved fsum cfg s u0 u.
Proof. intros fsum cfg s u0 u k t H. exact (proj1 (solve_returned fsum cfg s u0 u k t H)). Qed.
Print Assumptions C30_returned_converged.

(** It is reached by Newton updates from the start, and no iterate before it was solved. *)
Theorem C30_returned_first : forall fsum cfg s u0 u k t,
  solve fsum cfg s u0 = (Ok (u, k), t) ->
  exists l, path cfg s u0 l u /\ length l = k /\ Forall (unsolved fsum cfg s u0) (removelast (u0 :: l)).
Proof. intros fsum cfg s u0 u k t H. exact (proj2 (proj2 (proj2 (solve_returned fsum cfg s u0 u k t H)))). Qed.
Print Assumptions C30_returned_first.

(** If the system itself never raises, the only other outcome is a recoverable
    ConvergenceError, and then no iterate was solved and the iterations were used up or the
    residual stopped being finite. *)
Theorem C30_otherwise_recoverable : forall fsum cfg s n u0 e t,
  total_system n s -> length u0 = n -> shaped (sy_usizes s) u0 ->
  solve fsum cfg s u0 = (Err e, t) ->
  (exists w, e = Convergence w) /\
  exists l u, path cfg s u0 l u /\ Forall (unsolved fsum cfg s u0) (u0 :: l) /\
    (length l = cf_miters cfg - 1 \/ not_finite fsum s u /\ 1 <= length l <= cf_miters cfg - 1).
Proof. exact solve_raised. Qed.
Print Assumptions C30_otherwise_recoverable.

Example C30_hypotheses :
  total_system 2 (rows_system [1] [slow_sys; long_sys]) /\
  shaped [1] [at1 (fnum 1 (-8)); at1 fone].
Proof.
  split; [|unfold shaped; repeat constructor]. apply (rows_total [1] [slow_sys; long_sys]); [discriminate|].
  keeps.
Qed.
Example C30_case :
  fst (solve sum0 cfg0 (rows_system [1] [slow_sys; slow_sys]) [at1 (fnum 1 (-8)); at1 fone])
    = Ok ([at1 (fnum 1 (-19)); at1 (fnum 1 (-11))], 11) /\
  fst (solve sum0 (with_miters 5 cfg0) (rows_system [1] [slow_sys; slow_sys]) [at1 (fnum 1 (-8)); at1 fone])
    = Err (Convergence "AOTI Newton failed to converge") /\
  fst (solve sum0 cfg0 (rows_system [1] [jump_sys (fnum 1 600) fzero]) [at1 fzero])
    = Err (Convergence "AOTI Newton diverged").
Proof. repeat split; vm_compute; reflexivity. Qed.

(** Finding: the initial residual is not tested for being finite.  When its norm overflows the
    relative test accepts any finite residual afterwards. *)
Theorem C30_infinite_start_refuted :
  exists s u0 u k b,
    total_system 1 s /\ fst (solve sum0 cfg0 s u0) = Ok (u, k) /\ sy_residual s u = Ok [b] /\
    flt (fnum 1 99) (rnorm sum0 b) = true.
Proof.
  exists (rows_system [1] [huge_start (fnum 1 100)]), [at1 fzero], [at1 fone], 1, (at1 (fnum 1 100)).
  split; [apply (rows_total [1] [huge_start (fnum 1 100)]); [discriminate|keeps]|].
  split; [vm_compute; reflexivity|]. split; vm_compute; reflexivity.
Qed.
Print Assumptions C30_infinite_start_refuted.

(** Finding: with atol = 0 a start point that already solves the system exactly is refused. *)
Theorem C30_exact_start_refuted :
  exists s u0 b, total_system 1 s /\ sy_residual s u0 = Ok [b] /\ rnorm sum0 b = fzero /\
    fst (solve sum0 (with_atol fzero cfg0) s u0) = Err (Convergence "AOTI Newton failed to converge").
Proof.
  exists (rows_system [1] [rs1 (fun x => x) (fun x => x)]), [at1 fzero], (at1 fzero).
  split; [apply (rows_total [1] [rs1 (fun x => x) (fun x => x)]); [discriminate|keeps]|].
  split; [reflexivity|]. split; vm_compute; reflexivity.
Qed.
Print Assumptions C30_exact_start_refuted.

(** * C31 *)
Theorem C31_solve_cost : forall fsum cfg s u0 r t,
  solve fsum cfg s u0 = (r, t) ->
  steps_of t <= cf_miters cfg - 1 /\ residuals_of t <= 1 + (cf_miters cfg - 1) * trials cfg.
Proof. exact solve_cost. Qed.
Print Assumptions C31_solve_cost.

Theorem C31_reported_count : forall fsum cfg s u0 u k t,
  solve fsum cfg s u0 = (Ok (u, k), t) -> k = steps_of t /\ k <= cf_miters cfg - 1.
Proof.
  intros fsum cfg s u0 u k t H. destruct (solve_returned fsum cfg s u0 u k t H) as [_ [A [B _]]]. split; [symmetry; exact B|exact A].
Qed.
Print Assumptions C31_reported_count.

Theorem C31_iteration_cost : forall fsum cfg s hist u b frozen r t,
  iterate fsum cfg s hist u b frozen = (r, t) ->
  steps_of t <= 1 /\ residuals_of t <= trials cfg /\ (is_ok r = true -> steps_of t = 1).
Proof. exact iterate_cost. Qed.
Print Assumptions C31_iteration_cost.

Theorem C31_masked_cost : forall fsum cfg s u0 r t,
  solve_masked fsum cfg s u0 = (r, t) ->
  steps_of t <= cf_miters cfg - 1 /\ residuals_of t <= 1 + (cf_miters cfg - 1) * trials cfg /\
  (forall u m k, r = Ok (u, m, k) -> steps_of t = k).
Proof. exact masked_cost. Qed.
Print Assumptions C31_masked_cost.

(** The bounds are attained: 4 updates of 4 trials each for miters = 5, ls_max_iters = 5. *)
Definition stuck_sys : rowsys := rs1 (fun _ => fone) (fun _ => fone).
Example C31_case :
  let t := snd (solve sum0 (with_miters 5 cfg_ls) (rows_system [1] [stuck_sys]) [at1 fzero]) in
  steps_of t = 4 /\ residuals_of t = 17 /\ trials (with_miters 5 cfg_ls) = 4.
Proof. vm_compute. auto. Qed.

(** * C32 *)

(** Any system: an iteration moves every row along its own du by 1, or by 1/cutback^k with
    k <= ls_max_iters - 2 ([update], [advanced]). *)
Theorem C32_admissible : forall fsum cfg s hist u b u' b' t,
  shaped (sy_usizes s) u -> length b = length u ->
  iterate fsum cfg s hist u b None = (Ok (u', b'), t) -> update cfg s hist u u'.
Proof. exact iterate_update. Qed.
Print Assumptions C32_admissible.

(** Unrelated rows: each row gets the first cut that its own residual accepts. *)
Theorem C32_first_accepted : forall fsum cfg sz rs hist u b,
  sz <> [] -> Forall (keeps_shape sz) rs ->
  length u = length rs -> shaped sz u -> length b = length rs -> 2 <= cf_ls_max_iters cfg ->
  exists u' b' t, iterate fsum cfg (rows_system sz rs) hist u b None = (Ok (u', b'), t) /\
    forall i q x y, nth_error rs i = Some q -> nth_error u i = Some x -> nth_error b i = Some y ->
      exists k, first_cut fsum cfg q x y (rw_step q x) k /\
        nth_error u' i = Some (moved (cut (cf_ls_cutback cfg) k) x (rw_step q x)).
Proof. exact iterate_first_cut. Qed.
Print Assumptions C32_first_accepted.

(** That cut is determined by the row. *)
Theorem C32_cut_unique : forall fsum cfg rs u b d k k',
  first_cut fsum cfg rs u b d k -> first_cut fsum cfg rs u b d k' -> k = k'.
Proof. exact first_cut_unique. Qed.
Print Assumptions C32_cut_unique.

(** One row needs two cuts, the other none. *)
Example C32_case :
  fst (iterate sum0 cfg_ls (rows_system [1] [long_sys; exact_sys]) [] [at1 fone; at1 fone]
         [at1 (fopp fone); at1 (fopp fone)] None)
  = Ok ([at1 fzero; at1 fzero], [at1 (fopp fzero); at1 (fopp fzero)]).
Proof. vm_compute. reflexivity. Qed.
Example C32_hypotheses :
  [1] <> [] /\ Forall (keeps_shape [1]) [long_sys; exact_sys] /\ shaped [1] [at1 fone; at1 fone] /\
  2 <= cf_ls_max_iters cfg_ls /\
  first_cut sum0 cfg_ls long_sys (at1 fone) (at1 (fopp fone)) (at1 (fnum (-4) 0)) 2.
Proof.
  split; [discriminate|]. split; [keeps|]. split; [unfold shaped; repeat constructor|].
  split; [cbn; lia|]. split; [cbn; lia|]. split.
  - intros j Hj [A|A]; destruct j as [|[|j]]; try lia; vm_compute in A; discriminate.
  - left. left. vm_compute. reflexivity.
Qed.

(** * C33 *)

Theorem C33_never_raises : forall fsum n cfg s u0,
  total_system n s -> length u0 = n -> shaped (sy_usizes s) u0 ->
  exists x t, solve_masked fsum cfg s u0 = (Ok x, t).
Proof. exact masked_total. Qed.
Print Assumptions C33_never_raises.

Theorem C33_mask_exact : forall fsum cfg s u0 u m k t,
  solve_masked fsum cfg s u0 = (Ok (u, m, k), t) -> mask_exact fsum cfg s u0 (last_iterate t) u m.
Proof. exact masked_mask. Qed.
Print Assumptions C33_mask_exact.

(** In particular a row marked converged meets atol or rtol and is not NaN. *)
Theorem C33_mask_meets_tolerance : forall fsum cfg s u0 u m k t b0 b i r r0,
  solve_masked fsum cfg s u0 = (Ok (u, m, k), t) ->
  sy_residual s u0 = Ok b0 -> sy_residual s u = Ok b ->
  nth_error m i = Some true -> nth_error b i = Some r -> nth_error b0 i = Some r0 ->
  meets_tol cfg (rnorm fsum r) (rnorm fsum r0) /\ fnan (rnorm fsum r) = false.
Proof.
  intros fsum cfg s u0 u m k t b0 b i r r0 H R0 R Nm Nr N0.
  destruct (masked_mask fsum cfg s u0 u m k t H) as [c0 [c [Q0 [Q [L0 [L [Lu [Lm M]]]]]]]].
  rewrite R0 in Q0. injection Q0 as <-. rewrite R in Q. injection Q as <-.
  assert (Li : i < length b) by (apply nth_error_Some; congruence).
  destruct (nth_error u i) as [x|] eqn:Nx; [|apply nth_error_None in Nx; lia].
  pose proof (proj1 (M i true r r0 x Nm Nr N0 Nx) eq_refl) as A. clear M.
  destruct (last_iterate t) as [v|]; [destruct A as [x' [_ [A|[A _]]]]|].
  - split; [left; exact A|eapply flt_finite_or; exact A].
  - split; [right; exact A|]. destruct (rnorm fsum r); [reflexivity|reflexivity|discriminate A|reflexivity].
  - split; [left; exact A|eapply flt_finite_or; exact A].
Qed.
Print Assumptions C33_mask_meets_tolerance.

(** Frozen: [iterates_of t ++ [u]] is the sequence of iterates.  Once an update leaves row [i]
    converged, row [i] of every later iterate is the same (minus zero may become zero). *)
Theorem C33_frozen : forall fsum cfg s u0 b0 u m k t,
  finite_cuts cfg -> sy_residual s u0 = Ok b0 ->
  solve_masked fsum cfg s u0 = (Ok (u, m, k), t) ->
  forall l1 v1 v2 l2 b2 i x1 x2 r0 r2,
    iterates_of t ++ [u] = l1 ++ v1 :: v2 :: l2 ->
    sy_residual s v2 = Ok b2 ->
    nth_error v1 i = Some x1 -> nth_error v2 i = Some x2 -> nth_error b0 i = Some r0 -> nth_error b2 i = Some r2 ->
    meets_masked_tol cfg (rnorm fsum r2) (rnorm fsum r0) (rnorm fsum (diff_row x2 x1)) (rnorm fsum x2) ->
    forall v3 x3, In v3 (v2 :: l2) -> nth_error v3 i = Some x3 -> same_row x2 x3.
Proof. exact masked_frozen. Qed.
Print Assumptions C33_frozen.

(** Three rows: converged after 1, 11 and 8 updates; the first two stay put. *)
Example C33_case :
  let '(r, t) := solve_masked sum0 cfg_ls (rows_system [1] [exact_sys; slow_sys; slow_sys])
                              [at1 fone; at1 fone; at1 (fnum 1 (-3))] in
  r = Ok ([at1 fzero; at1 (fnum 1 (-11)); at1 (fnum 1 (-11))], [true; true; true], 11) /\
  nth_error (iterates_of t ++ [[at1 fzero; at1 (fnum 1 (-11)); at1 (fnum 1 (-11))]]) 8
  = Some [at1 fzero; at1 (fnum 1 (-8)); at1 (fnum 1 (-11))] /\
  finite_cuts cfg_ls.
Proof. vm_compute. split; [reflexivity|]. split; [reflexivity|exact cfg_ls_cuts]. Qed.

(** Finding: a row that already meets atol at the start is not frozen during the first
    update; the solve moves it away from its solution and reports it as not converged. *)
Theorem C33_solved_start_lost_refuted :
  exists s u0 b0 r0 u m,
    total_system 2 s /\ sy_residual s u0 = Ok b0 /\ nth_error b0 0 = Some r0 /\
    flt (rnorm sum0 r0) (cf_atol (with_miters 3 cfg0)) = true /\
    fst (solve_masked sum0 (with_miters 3 cfg0) s u0) = Ok (u, m, 2) /\ nth_error m 0 = Some false.
Proof.
  exists (rows_system [1] [leave_sys; slow_sys]), [at1 fzero; at1 fone],
         [at1 (fnum 1 (-20)); at1 (fopp fone)], (at1 (fnum 1 (-20))), [at1 ftwo; at1 (fnum 1 (-2))], [false; false].
  split; [apply (rows_total [1] [leave_sys; slow_sys]); [discriminate|keeps]|].
  repeat split; vm_compute; reflexivity.
Qed.
Print Assumptions C33_solved_start_lost_refuted.

(** * C34 *)

(** What holds: a row that does not meet atol at the start, and whose solve alone does not end with a
    residual that is not finite, gets the same iterate and the same mask bit in any batch.
    Missing for the full property: rows solved at the start and rows that stop being finite, for which
    it is false ([C34_solved_start_refuted], [C34_not_finite_refuted]); and rows that converge
    to a value with a minus zero or an infinity in it. *)
Theorem C34_independent_partial : forall fsum cfg sz rs u0 u m k t i q x0 xs ms ks ts,
  sz <> [] -> Forall (keeps_shape sz) rs -> finite_cuts cfg -> sums_zeros fsum ->
  nth_error rs i = Some q -> nth_error u0 i = Some x0 ->
  solve_masked fsum cfg (rows_system sz rs) u0 = (Ok (u, m, k), t) ->
  solve_masked fsum cfg (rows_system sz [q]) [x0] = (Ok ([xs], [ms], ks), ts) ->
  flt (rnorm fsum (rw_residual q x0)) (cf_atol cfg) = false ->
  ffinite (rnorm fsum (rw_residual q xs)) = true -> (ms = true -> ordinary xs) ->
  nth_error u i = Some xs /\ nth_error m i = Some ms.
Proof. exact masked_independent. Qed.
Print Assumptions C34_independent_partial.

Example C34_case :
  sums_zeros sum0 /\ finite_cuts cfg_ls /\
  fst (solve_masked sum0 cfg_ls (rows_system [1] [slow_sys; slow_sys]) [at1 (fnum 1 (-3)); at1 fone])
    = Ok ([at1 (fnum 1 (-11)); at1 (fnum 1 (-11))], [true; true], 11) /\
  fst (solve_masked sum0 cfg_ls (rows_system [1] [slow_sys]) [at1 (fnum 1 (-3))])
    = Ok ([at1 (fnum 1 (-11))], [true], 8) /\
  ordinary (at1 (fnum 1 (-11))).
Proof.
  split; [exact sum0_zeros|]. split; [exact cfg_ls_cuts|]. split; [vm_compute; reflexivity|]. split; [vm_compute; reflexivity|].
  repeat constructor. discriminate.
Qed.

(** Finding: solved at the start, alone the row is returned as it is; in a batch it moves. *)
Theorem C34_solved_start_refuted :
  exists q q' x0 x0' u m k xs ms ks,
    keeps_shape [1] q /\ keeps_shape [1] q' /\
    fst (solve_masked sum0 cfg0 (rows_system [1] [q; q']) [x0; x0']) = Ok (u, m, k) /\
    fst (solve_masked sum0 cfg0 (rows_system [1] [q]) [x0]) = Ok ([xs], [ms], ks) /\
    nth_error u 0 <> Some xs.
Proof.
  exists slow_sys, slow_sys, (at1 (fnum 1 (-12))), (at1 fone), [at1 (fnum 1 (-13)); at1 (fnum 1 (-11))], [true; true], 11,
         (at1 (fnum 1 (-12))), true, 0.
  split; [apply rs1_keeps|]. split; [apply rs1_keeps|]. split; [vm_compute; reflexivity|]. split; [vm_compute; reflexivity|].
  vm_compute. discriminate.
Qed.
Print Assumptions C34_solved_start_refuted.

(** Finding: a row whose residual overflows on the way is given up alone, but carried on (and
    here solved) next to a slower row. *)
Theorem C34_not_finite_refuted :
  exists q q' x0 x0' u m k xs ks,
    keeps_shape [1] q /\ keeps_shape [1] q' /\
    fst (solve_masked sum0 cfg0 (rows_system [1] [q; q']) [x0; x0']) = Ok (u, m, k) /\
    fst (solve_masked sum0 cfg0 (rows_system [1] [q]) [x0]) = Ok ([xs], [false], ks) /\
    nth_error m 0 = Some true.
Proof.
  exists (jump_sys (fnum 1 600) fzero), slow_sys, (at1 fzero), (at1 fone), [at1 ftwo; at1 (fnum 1 (-11))], [true; true], 11,
         (at1 fone), 1.
  split; [apply rs1_keeps|]. split; [apply rs1_keeps|]. split; [vm_compute; reflexivity|]. split; vm_compute; reflexivity.
Qed.
Print Assumptions C34_not_finite_refuted.

(** * C52 *)

(** Whatever rows a call is given, every returned row meets the tolerances: this is C30 for
    the rows of that call. *)
Theorem C52_every_chunk_converged : forall fsum cfg sz rs u0 u k t,
  solve fsum cfg (rows_system sz rs) u0 = (Ok (u, k), t) -> solved fsum cfg (rows_system sz rs) u0 u.
Proof. intros fsum cfg sz rs u0 u k t. apply C30_returned_converged. Qed.
Print Assumptions C52_every_chunk_converged.

(** And it is an iterate of the row on its own: the other rows only influence how many updates
    are made. *)
Theorem C52_rows_follow_own_iterates : forall fsum cfg sz rs u0 u k t,
  sz <> [] -> Forall (keeps_shape sz) rs ->
  solve fsum cfg (rows_system sz rs) u0 = (Ok (u, k), t) ->
  length u = length rs /\
  forall j q x z, nth_error rs j = Some q -> nth_error u j = Some x -> nth_error u0 j = Some z ->
    exists y, solo fsum cfg sz q z k = Ok (x, y).
Proof. exact solve_rows. Qed.
Print Assumptions C52_rows_follow_own_iterates.

(** So two ways of dividing a batch agree on a row as soon as they make the same number of updates. *)
Theorem C52_same_count_same_row : forall fsum cfg sz rs u0 u rs' u0' u' k t t' i j q z,
  sz <> [] -> Forall (keeps_shape sz) rs -> Forall (keeps_shape sz) rs' ->
  solve fsum cfg (rows_system sz rs) u0 = (Ok (u, k), t) ->
  solve fsum cfg (rows_system sz rs') u0' = (Ok (u', k), t') ->
  nth_error rs i = Some q -> nth_error rs' j = Some q -> nth_error u0 i = Some z -> nth_error u0' j = Some z ->
  nth_error u i = nth_error u' j.
Proof.
  intros fsum cfg sz rs u0 u rs' u0' u' k t t' i j q z NE K K' H H' Nq Nq' Nz Nz'.
  destruct (solve_rows fsum cfg sz rs u0 u k t NE K H) as [L A].
  destruct (solve_rows fsum cfg sz rs' u0' u' k t' NE K' H') as [L' A'].
  assert (Li : i < length rs) by (apply nth_error_Some; congruence).
  assert (Lj : j < length rs') by (apply nth_error_Some; congruence).
  destruct (nth_error u i) as [x|] eqn:Nx; [|apply nth_error_None in Nx; lia].
  destruct (nth_error u' j) as [x'|] eqn:Nx'; [|apply nth_error_None in Nx'; lia].
  destruct (A i q x z Nq Nx Nz) as [y E]. destruct (A' j q x' z Nq' Nx' Nz') as [y' E']. congruence.
Qed.
Print Assumptions C52_same_count_same_row.

(** Equality bit for bit across chunk sizes does not hold: the first row gets 11 updates next to
    the second one, 3 on its own. *)
Theorem C52_bitwise_refuted :
  exists q q' x0 x0' u k u1 k1,
    keeps_shape [1] q /\ keeps_shape [1] q' /\
    fst (solve sum0 cfg0 (rows_system [1] [q; q']) [x0; x0']) = Ok (u, k) /\
    fst (solve sum0 cfg0 (rows_system [1] [q]) [x0]) = Ok (u1, k1) /\
    nth_error u 0 <> nth_error u1 0.
Proof.
  exists slow_sys, slow_sys, (at1 (fnum 1 (-8))), (at1 fone), [at1 (fnum 1 (-19)); at1 (fnum 1 (-11))], 11, [at1 (fnum 1 (-11))], 3.
  split; [apply rs1_keeps|]. split; [apply rs1_keeps|]. split; [vm_compute; reflexivity|]. split; [vm_compute; reflexivity|].
  vm_compute. discriminate.
Qed.
Print Assumptions C52_bitwise_refuted.

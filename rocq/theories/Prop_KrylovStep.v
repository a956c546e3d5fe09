(** Property C59: the Newton step by a Krylov solve. *)
From Coq Require Import QArith Qcanon.
From Verif Require Import Base BaseProofs Tensor Newton Pack Krylov SpecKrylov KrylovSystem SpecKrylovSystem SpecKrylovStep KrylovStepProofs
     Example_Krylov Example_KrylovStep.
Local Open Scope nat_scope.

(** A step that returns evaluated the residual at the point it was given, answers it as right-hand side, and returns an
    increment with the unknowns' groups whose rows are the solution of one Krylov solve: right-hand sides the rows of the
    residual, operator the Jacobian action at that point, row by row. *)
Theorem C59_step : forall V (N : num V) rsum edot tri s u dyn d rws A M st du b st' l,
  sum_of (map width u) = sum_of rws ->
  (forall r, ks_res s u = Ok r -> dense_groups dyn d r rws) ->
  row_operator dyn d (map width u) rws A (ks_mat s u) ->
  k_method (ks_cfg s) = BiCGStab \/ (0 < k_restart (ks_cfg s))%Z ->
  (forall i, i < numel dyn -> keeps_width (sum_of rws) (A i)) -> (forall i, i < numel dyn -> keeps_width (sum_of rws) (M i)) ->
  kstep N rsum edot tri s u st = (Ok (du, b), st', l) ->
  precond_rows s (numel dyn) (sum_of rws) d M (st_precond st') ->
  ks_res s u = Ok b /\ dense_groups dyn d du (map width u) /\
  exists iters calls setup_calls,
    l = SResidual u :: setup_calls ++ [SSolve (st_precond st') calls (Ok iters)] /\
    st_last st' = Z.of_nat iters /\
    solves_rows N rsum edot tri (ks_cfg s) (numel dyn) A M du b iters calls.
Proof. intros V N rsum edot tri s u dyn d rws A M st du b st' l H1 H2 H3. exact (step_solves N rsum edot tri s u dyn d rws A H1 H2 H3 st du b st' l M). Qed.
Print Assumptions C59_step.

(** In exact arithmetic, by BiCGStab: an increment whose solve stopped before its budget solves the linearised system in
    every row of the batch to the tolerances.  (Solves that use the budget up return their increments as well, see C45; for
    GMRES see [C59_gmres].) *)
Theorem C59_bicgstab : forall V (N : num V) rsum edot tri s u dyn d rws A M st du b st' l,
  sum_of (map width u) = sum_of rws ->
  (forall r, ks_res s u = Ok r -> dense_groups dyn d r rws) ->
  row_operator dyn d (map width u) rws A (ks_mat s u) ->
  ring_of N -> k_method (ks_cfg s) = BiCGStab ->
  (forall i, i < numel dyn -> linear_op N (sum_of rws) (A i)) -> (forall i, i < numel dyn -> keeps_width (sum_of rws) (M i)) ->
  kstep N rsum edot tri s u st = (Ok (du, b), st', l) ->
  precond_rows s (numel dyn) (sum_of rws) d M (st_precond st') ->
  (st_last st' < k_max_its (ks_cfg s))%Z ->
  forall i, i < numel dyn ->
    within N rsum (ks_cfg s) (row_entries i b) (residual_of N (A i) (row_entries i b) (row_entries i du)).
Proof. intros V N rsum edot tri s u dyn d rws A M st du b st' l H1 H2 H3. exact (step_within N rsum edot tri s u dyn d rws A H1 H2 H3 st du b st' l M). Qed.
Print Assumptions C59_bicgstab.

Example C59_case : exists du st l, ks_run 5 = (Ok (du, ks_b), st, l) /\ nums du = [[1 # 5; 3 # 5; 1; 0]%Q] /\ (st_last st < 5)%Z.
Proof. destruct ks_runs as (du & st & l & E & D & L). exists du, st, l. rewrite L. repeat split; assumption. Qed.
Example C59_case_hypotheses : sum_of (map width ks_u) = sum_of [1; 1] /\
  (forall r, ks_res (ks_sys 5) ks_u = Ok r -> dense_groups [2] cpu r [1; 1]) /\
  row_operator [2] cpu (map width ks_u) [1; 1] ks_A (ks_mat (ks_sys 5) ks_u) /\
  ring_of qk_num /\ (forall i, i < numel [2] -> linear_op qk_num (sum_of [1; 1]) (ks_A i)) /\ keeps_width (sum_of [1; 1]) ks_half /\
  forall p, precond_rows (ks_sys 5) (numel [2]) (sum_of [1; 1]) cpu (fun _ => ks_half) p.
Proof.
  split; [reflexivity|]. split; [apply ks_res_dense|]. split; [apply ks_mat_rows|]. split; [apply qk_ring|]. split; [apply ks_linear|].
  split; [apply ks_half_width|]. apply ks_precond_rows.
Qed.

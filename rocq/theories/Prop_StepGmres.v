(** Properties C45, C59 for GMRES, in exact arithmetic. *)
From Coq Require Import Reals Lra.
From Verif Require Import Base Tensor Newton Pack Krylov SpecKrylov KrylovSystem SpecKrylovSystem SpecKrylovStep.
From Verif Require Import SpecGmres SpecStepGmres StepGmresProofs Example_Gmres Example_StepGmres.
Local Open Scope nat_scope.
Notation sum_ws := SpecKrylovSystem.sum_of.

(** The Newton step by GMRES.  If the solve stopped before its budget, then in every row whose directions were not
    floored the increment solves the preconditioned linearised system to the tolerances, up to [eps] times the steps
    the increment is the sum of. *)
Theorem C59_gmres : forall eps tri s u dyn d rws A M st du b st' l,
  sum_ws (map width u) = sum_ws rws ->
  (forall r, ks_res s u = Ok r -> dense_groups dyn d r rws) ->
  row_operator dyn d (map width u) rws A (ks_mat s u) ->
  (0 < eps)%R -> solves_upper tri -> k_method (ks_cfg s) = GMRES -> (0 < k_restart (ks_cfg s))%Z ->
  (forall i, i < numel dyn -> linear_op (reals eps) (sum_ws rws) (A i)) ->
  (forall i, i < numel dyn -> linear_op (reals eps) (sum_ws rws) (M i)) ->
  (forall i, i < numel dyn -> bounded_below eps (sum_ws rws) (fun v => M i (A i v))) ->
  kstep (reals eps) real_sum real_dot tri s u st = (Ok (du, b), st', l) ->
  precond_rows s (numel dyn) (sum_ws rws) d M (st_precond st') ->
  (st_last st' < k_max_its (ks_cfg s))%Z ->
  exists iters calls setup_calls, l = SResidual u :: setup_calls ++ [SSolve (st_precond st') calls (Ok iters)] /\
  forall i, i < numel dyn -> normalised (Z.to_nat (k_restart (ks_cfg s))) i iters calls ->
    near eps (ks_cfg s) (sum_ws rws) iters (row_entries i b) (row_entries i du)
         (M i (residual_of (reals eps) (A i) (row_entries i b) (row_entries i du))).
Proof. exact step_gmres. Qed.
Print Assumptions C59_gmres.
Example C59_gmres_case :
  (exists st l, kstep gx_N real_sum real_dot back_solve sg_sys sg_u (fresh_state (V:=R)) = (Ok (sg_du, sg_b), st, l) /\
     st_last st = 2%Z /\ l = SResidual sg_u :: [] ++ [SSolve (st_precond st) sg_log (Ok 2)]) /\
  normalised 2 0 2 sg_log /\ (forall r, ks_res sg_sys sg_u = Ok r -> dense_groups [1] cpu r [2]) /\
  row_operator [1] cpu (map width sg_u) [2] (fun _ => gx_swap) (ks_mat sg_sys sg_u) /\ solves_upper back_solve /\
  linear_op gx_N 2 gx_swap /\ linear_op gx_N 2 (fun v => v) /\ bounded_below (1 / 2) 2 gx_swap /\
  forall p, precond_rows sg_sys 1 2 cpu (fun _ v => v) p.
Proof.
  split; [exact sg_runs|]. split; [exact sg_normalised|]. split; [exact sg_res|]. split; [exact sg_rows|]. split; [exact back_solves|].
  split; [exact gx_linear|]. split; [exact gx_identity|]. split; [exact gx_bounded|]. intros p i v. reflexivity.
Qed.

(** The sensitivity solve by GMRES, column by column.  Missing: rounding, floored directions, solves that use the
    budget up (returned as well, see [C45_refuted]). *)
Theorem C45_gmres_partial : forall eps tri cfg pre n m (A B X : tensor R),
  (0 < eps)%R -> solves_upper tri -> k_method cfg = GMRES -> (0 < k_restart cfg)%Z ->
  wf A -> t_shape A = pre ++ [n; n] -> wf B -> t_shape B = pre ++ [n; m] ->
  krylov_solve_dense (reals eps) real_sum real_dot tri cfg A B = Ok X ->
  forall j, j < m -> exists b res l,
    krylov_solve (reals eps) real_sum real_dot tri (dense_matvec real_dot n (t_data A) (numel pre)) (fun r => Ok r) b cfg = (Ok res, l) /\
    length b = numel pre /\
    forall i, i < numel pre -> exists a bi x,
      matrix_of (t_data A) n i a /\ column_of (t_data B) n m i j bi /\ column_of (t_data X) n m i j x /\ nth_error b i = Some bi /\
      ((Z.of_nat (kr_iters res) < k_max_its cfg)%Z -> normalised (Z.to_nat (k_restart cfg)) i (kr_iters res) l ->
       bounded_below eps n (apply_matrix real_dot a) ->
       near eps cfg n (kr_iters res) bi x (residual_of (reals eps) (apply_matrix real_dot a) bi x)).
Proof. exact dense_gmres. Qed.
Print Assumptions C45_gmres_partial.
Example C45_gmres_case :
  krylov_solve_dense gx_N real_sum real_dot back_solve sg_cfg sg_A sg_B = Ok sg_X /\ wf sg_A /\ wf sg_B /\
  krylov_solve gx_N real_sum real_dot back_solve (dense_matvec real_dot 2 (t_data sg_A) 1) (fun r => Ok r) [[1; 0]%R] sg_cfg
    = (Ok (mkKres [[0; 2 / 3]%R] 2 [true]), sg_log) /\
  normalised 2 0 2 sg_log /\ matrix_of (t_data sg_A) 2 0 [[0; 1]; [1; 0]]%R /\ bounded_below (1 / 2) 2 (apply_matrix real_dot [[0; 1]; [1; 0]]%R).
Proof.
  split; [exact sg_dense|]. split; [reflexivity|]. split; [reflexivity|]. split; [exact sg_dense_solve|]. split; [exact sg_normalised|].
  split; [exact sg_matrix|exact sg_bounded].
Qed.

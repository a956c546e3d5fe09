(** Properties C63, C59, C45: GMRES over the real numbers stops; a row of [n] is flagged within [n] iterations. *)
From Coq Require Import Reals Lra.
From Verif Require Import Base Tensor Newton Pack Krylov SpecKrylov KrylovSystem SpecKrylovSystem SpecKrylovStep.
From Verif Require Import SpecGmres SpecStepGmres GmresStopProofs StepGmresProofs Example_Gmres Example_StepGmres Example_GmresStop.
Local Open Scope nat_scope.
Notation sum_ws := SpecKrylovSystem.sum_of.
Notation positive := (fun x => 0 < x)%R.

(** One row of a batch, whatever the others do: with a cycle not shorter than the row, a budget and a positive
    tolerance, and its directions not floored, it is flagged. *)
Theorem C63_row_stops : forall n eps tri matvec minv b cfg res l i A M bi,
  (0 < eps)%R -> full_cycle positive cfg n ->
  acts_on i A matvec -> acts_on i M minv -> linear_op (reals eps) n A -> linear_op (reals eps) n M ->
  bounded_below eps n (fun v => M (A v)) ->
  gmres (reals eps) real_sum real_dot tri matvec minv b cfg = (Ok res, l) ->
  nth_error b i = Some bi -> length bi = n -> normalised (Z.to_nat (k_restart cfg)) i n l ->
  nth_error (kr_converged res) i = Some true.
Proof.
  intros n eps tri matvec minv b cfg res l i A M bi He Fc EA EM LA LM GB H Eb Lb Hn.
  destruct (gmres_row_stops n eps tri matvec minv b cfg res l i A M bi He Fc EA EM LA LM GB H Eb Lb Hn) as (c & st & s & _ & _ & E & _ & _ & Es & D & _).
  rewrite E, nth_error_map, Es. cbn. rewrite D. reflexivity.
Qed.
Print Assumptions C63_row_stops.

(** A batch of such rows: at most [n] iterations, every row flagged, and every answer within the tolerances up to [eps]
    times itself. *)
Theorem C63_stops : forall n eps tri matvec minv b cfg res l A M,
  (0 < eps)%R -> solves_upper tri -> full_cycle positive cfg n ->
  gmres (reals eps) real_sum real_dot tri matvec minv b cfg = (Ok res, l) ->
  (forall i bi, nth_error b i = Some bi -> length bi = n /\
     acts_on i (A i) matvec /\ acts_on i (M i) minv /\ linear_op (reals eps) n (A i) /\ linear_op (reals eps) n (M i) /\
     bounded_below eps n (fun v => M i (A i v)) /\ normalised (Z.to_nat (k_restart cfg)) i n l) ->
  kr_iters res <= n /\ kr_converged res = repeat true (length b) /\
  forall i bi x, nth_error b i = Some bi -> nth_error (kr_du res) i = Some x ->
    length x = n /\ met eps cfg bi x (M i (residual_of (reals eps) (A i) bi x)).
Proof. exact gmres_stops. Qed.
Print Assumptions C63_stops.

(** The swap of two entries takes both iterations. *)
Example C63_stops_case :
  full_cycle positive gx_cfg 2 /\ solves_upper back_solve /\ gx_run = (Ok (mkKres [[0; 2 / 3]%R] 2 [true]), gx_log) /\
  (forall i bi, nth_error gx_b i = Some bi -> length bi = 2 /\
     acts_on i gx_swap gx_mat /\ acts_on i (fun v => v) gx_pre /\ linear_op gx_N 2 gx_swap /\ linear_op gx_N 2 (fun v => v) /\
     bounded_below (1 / 2) 2 gx_swap /\ normalised (Z.to_nat (k_restart gx_cfg)) i 2 gx_log).
Proof.
  split; [unfold full_cycle; cbn; repeat split; try lia; left; lra|]. split; [exact back_solves|]. split; [exact gx_done|].
  intros [|[|i]] bi E; try discriminate. injection E as <-. split; [reflexivity|]. split; [apply gx_acts|]. split; [apply gx_acts|].
  split; [exact gx_linear|]. split; [exact gx_identity|]. split; [exact gx_bounded|exact gx_normalised].
Qed.

(** The length of the cycle is needed: restarted after every iteration, the same solve never moves, whatever the budget. *)
Theorem C63_short_cycle : forall k, (0 < k < 2 ^ 62)%Z ->
  exists l, gmres gx_N real_sum real_dot back_solve gx_mat gx_pre gx_b (mkKcfg GMRES CacheNone 1 k (1 / 4) 0 0)%R
    = (Ok (mkKres [[0; 0]%R] (Z.to_nat k) [false]), l).
Proof. exact gs_stagnates. Qed.
Print Assumptions C63_short_cycle.

(** The Newton step by GMRES, whether or not the solve used its budget up. *)
Theorem C59_stops : forall eps tri s u dyn d rws A M st du b st' l,
  sum_ws (map width u) = sum_ws rws ->
  (forall r, ks_res s u = Ok r -> dense_groups dyn d r rws) ->
  row_operator dyn d (map width u) rws A (ks_mat s u) ->
  (0 < eps)%R -> solves_upper tri -> k_method (ks_cfg s) = GMRES -> full_cycle positive (ks_cfg s) (sum_ws rws) ->
  (forall i, i < numel dyn -> linear_op (reals eps) (sum_ws rws) (A i)) ->
  (forall i, i < numel dyn -> linear_op (reals eps) (sum_ws rws) (M i)) ->
  (forall i, i < numel dyn -> bounded_below eps (sum_ws rws) (fun v => M i (A i v))) ->
  kstep (reals eps) real_sum real_dot tri s u st = (Ok (du, b), st', l) ->
  precond_rows s (numel dyn) (sum_ws rws) d M (st_precond st') ->
  exists iters calls setup_calls, l = SResidual u :: setup_calls ++ [SSolve (st_precond st') calls (Ok iters)] /\
  ((forall i, i < numel dyn -> normalised (Z.to_nat (k_restart (ks_cfg s))) i (sum_ws rws) calls) ->
   iters <= sum_ws rws /\
   forall i, i < numel dyn -> met eps (ks_cfg s) (row_entries i b) (row_entries i du)
         (M i (residual_of (reals eps) (A i) (row_entries i b) (row_entries i du)))).
Proof. exact step_stops. Qed.
Print Assumptions C59_stops.
Example C59_stops_case :
  full_cycle positive (ks_cfg sg_sys) (sum_ws [2]) /\ solves_upper back_solve /\
  (exists st l, kstep gx_N real_sum real_dot back_solve sg_sys sg_u (fresh_state (V:=R)) = (Ok (sg_du, sg_b), st, l) /\
     l = SResidual sg_u :: [] ++ [SSolve (st_precond st) sg_log (Ok 2)]) /\
  (forall i, i < numel [1] -> normalised (Z.to_nat (k_restart (ks_cfg sg_sys))) i (sum_ws [2]) sg_log) /\
  row_operator [1] cpu (map width sg_u) [2] (fun _ => gx_swap) (ks_mat sg_sys sg_u) /\
  linear_op gx_N 2 gx_swap /\ linear_op gx_N 2 (fun v => v) /\ bounded_below (1 / 2) 2 gx_swap.
Proof.
  split; [unfold full_cycle; cbn; repeat split; try lia; left; lra|]. split; [exact back_solves|].
  split; [destruct sg_runs as (st & l & H1 & _ & H2); exists st, l; auto|].
  split; [intros [|i] Hi; [exact sg_normalised|cbn in Hi; lia]|]. split; [exact sg_rows|]. split; [exact gx_linear|]. split; [exact gx_identity|exact gx_bounded].
Qed.

(** The sensitivity solve by GMRES: every column meets the tolerances, and no flag is lost by dropping it.  Missing:
    rounding, floored directions, cycles shorter than a row (see [C63_short_cycle] and [C45_refuted]). *)
Theorem C45_stops_partial : forall eps tri cfg pre n m (A B X : tensor R),
  (0 < eps)%R -> solves_upper tri -> k_method cfg = GMRES -> full_cycle positive cfg n ->
  wf A -> t_shape A = pre ++ [n; n] -> wf B -> t_shape B = pre ++ [n; m] ->
  (forall i a, i < numel pre -> matrix_of (t_data A) n i a -> bounded_below eps n (apply_matrix real_dot a)) ->
  krylov_solve_dense (reals eps) real_sum real_dot tri cfg A B = Ok X ->
  forall j, j < m -> exists b res l,
    krylov_solve (reals eps) real_sum real_dot tri (dense_matvec real_dot n (t_data A) (numel pre)) (fun r => Ok r) b cfg = (Ok res, l) /\
    length b = numel pre /\
    ((forall i, i < numel pre -> normalised (Z.to_nat (k_restart cfg)) i n l) ->
     kr_iters res <= n /\
     forall i, i < numel pre -> exists a bi x,
       matrix_of (t_data A) n i a /\ column_of (t_data B) n m i j bi /\ column_of (t_data X) n m i j x /\ nth_error b i = Some bi /\
       met eps cfg bi x (residual_of (reals eps) (apply_matrix real_dot a) bi x)).
Proof. exact dense_stops. Qed.
Print Assumptions C45_stops_partial.
Example C45_stops_case :
  full_cycle positive sg_cfg 2 /\ krylov_solve_dense gx_N real_sum real_dot back_solve sg_cfg sg_A sg_B = Ok sg_X /\ wf sg_A /\ wf sg_B /\
  matrix_of (t_data sg_A) 2 0 [[0; 1]; [1; 0]]%R /\ bounded_below (1 / 2) 2 (apply_matrix real_dot [[0; 1]; [1; 0]]%R) /\
  krylov_solve gx_N real_sum real_dot back_solve (dense_matvec real_dot 2 (t_data sg_A) 1) (fun r => Ok r) [[1; 0]%R] sg_cfg
    = (Ok (mkKres [[0; 2 / 3]%R] 2 [true]), sg_log) /\ normalised 2 0 2 sg_log.
Proof.
  split; [unfold full_cycle; cbn; repeat split; try lia; left; lra|]. split; [exact sg_dense|]. split; [reflexivity|]. split; [reflexivity|].
  split; [exact sg_matrix|]. split; [exact sg_bounded|]. split; [exact sg_dense_solve|exact sg_normalised].
Qed.

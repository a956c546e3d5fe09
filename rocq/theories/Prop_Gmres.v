(** Property C63: what a GMRES flag means in exact arithmetic. *)
From Coq Require Import Reals Lra.
From Verif Require Import Base Newton Krylov SpecKrylov SpecGmres GmresExactProofs Example_Gmres.
Local Open Scope R_scope.

(** A row with operator [A] and preconditioner [M], both linear, [M A] not below [eps]; no direction's norm was floored.
    Flagged: the returned [x] is a sum of steps, one per cycle, and the preconditioned residual [z] meets the
    tolerances up to [eps] times the steps.  Not flagged after a solve with a budget: [z] does not meet them. *)
Theorem C63_gmres : forall n eps tri matvec minv b cfg res l i A M bi x,
  0 < eps -> solves_upper tri -> (0 < k_restart cfg)%Z ->
  acts_on i A matvec -> acts_on i M minv -> linear_op (reals eps) n A -> linear_op (reals eps) n M ->
  bounded_below eps n (fun v => M (A v)) ->
  gmres (reals eps) real_sum real_dot tri matvec minv b cfg = (Ok res, l) ->
  nth_error b i = Some bi -> length bi = n -> nth_error (kr_du res) i = Some x ->
  normalised (Z.to_nat (k_restart cfg)) i (kr_iters res) l ->
  let z := M (residual_of (reals eps) A bi x) in
  length x = n /\
  (nth_error (kr_converged res) i = Some true ->
     exists e ds, 0 <= e /\ tolerated eps cfg bi e /\ Forall (fun d => length d = n) ds /\ x = sum_of n ds /\
       (length ds * Z.to_nat (k_restart cfg) < kr_iters res + Z.to_nat (k_restart cfg))%nat /\
       square z <= e * e + eps * eps * real_sum (map square ds)) /\
  (nth_error (kr_converged res) i = Some false -> (0 < k_max_its cfg)%Z -> ~ tolerated eps cfg bi (sqrt (square z))).
Proof. intros. eapply gmres_reals; eassumption. Qed.
Print Assumptions C63_gmres.

(** Without a preconditioner [z] is the residual [b - A x]. *)
Theorem C63_unpreconditioned : forall n eps tri matvec minv b cfg res l i A bi x,
  0 < eps -> solves_upper tri -> (0 < k_restart cfg)%Z ->
  acts_on i A matvec -> acts_on i (fun v => v) minv -> linear_op (reals eps) n A -> bounded_below eps n A ->
  gmres (reals eps) real_sum real_dot tri matvec minv b cfg = (Ok res, l) ->
  nth_error b i = Some bi -> length bi = n -> nth_error (kr_du res) i = Some x ->
  normalised (Z.to_nat (k_restart cfg)) i (kr_iters res) l ->
  (nth_error (kr_converged res) i = Some true ->
     exists e ds, 0 <= e /\ tolerated eps cfg bi e /\ Forall (fun d => length d = n) ds /\ x = sum_of n ds /\
       (length ds * Z.to_nat (k_restart cfg) < kr_iters res + Z.to_nat (k_restart cfg))%nat /\
       square (residual_of (reals eps) A bi x) <= e * e + eps * eps * real_sum (map square ds)) /\
  (nth_error (kr_converged res) i = Some false -> (0 < k_max_its cfg)%Z ->
     ~ tolerated eps cfg bi (sqrt (square (residual_of (reals eps) A bi x)))).
Proof.
  intros n eps tri matvec minv b cfg res l i A bi x He ST Hm EA EM LA GB H Eb Lb Ex Hn.
  eapply (C63_gmres n eps tri matvec minv b cfg res l i A (fun v => v) bi x); try eassumption.
  split; [intros y L; exact L|]. split; reflexivity.
Qed.
Print Assumptions C63_unpreconditioned.

(** The hypotheses on the solve, all met; the bound is attained: the solve returns 2/3 for 1, and the residual 1/3 is
    eps = 1/2 times the step. *)
Example C63_case :
  gx_run = (Ok (mkKres [[0; 2 / 3]] 2 [true]), gx_log) /\ solves_upper back_solve /\
  acts_on 0 gx_swap gx_mat /\ acts_on 0 (fun x => x) gx_pre /\ linear_op gx_N 2 gx_swap /\ linear_op gx_N 2 (fun x => x) /\
  bounded_below (1 / 2) 2 gx_swap /\ normalised 2 0 2 gx_log.
Proof.
  split; [exact gx_done|]. split; [exact back_solves|]. split; [apply gx_acts|]. split; [apply gx_acts|].
  split; [exact gx_linear|]. split; [exact gx_identity|]. split; [exact gx_bounded|exact gx_normalised].
Qed.
Example C63_attained :
  square (residual_of gx_N gx_swap [1; 0] [0; 2 / 3]) = 0 * 0 + 1 / 2 * (1 / 2) * square [0; 2 / 3] /\ tolerated (1 / 2) gx_cfg [1; 0] 0 /\
  ~ tolerated (1 / 2) gx_cfg [1; 0] (sqrt (square (residual_of gx_N gx_swap [1; 0] [0; 2 / 3]))).
Proof.
  assert (E : square (residual_of gx_N gx_swap [1; 0] [0; 2 / 3]) = 1 / 3 * (1 / 3)).
  { cbv [square real_dot real_sum map2 combine map fst snd fold_right residual_of gx_swap rev app n_sub reals]. lra. }
  rewrite E, sqrt_square by lra. split; [cbv [square real_dot real_sum map2 combine map fst snd fold_right]; lra|].
  unfold tolerated. cbn [k_abs_tol k_rel_tol gx_cfg]. split; [left; lra|].
  intros [Q|Q]; [lra|].
  assert (0 < / Rmax (1 / 2) (sqrt (square [1; 0]))) by (apply Rinv_0_lt_compat; eapply Rlt_le_trans; [|apply Rmax_l]; lra).
  unfold Rdiv at 1 in Q. nra.
Qed.

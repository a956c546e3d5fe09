(** Properties C43, C44, C54: cost, row independence and honesty of the Krylov solvers. *)
From Verif Require Load.
From Verif Require Import Base BaseProofs Tensor Float Newton Krylov SpecKrylov KrylovProofs KrylovCostProofs KrylovRowProofs KrylovGmresProofs
     KrylovExactProofs KrylovSoloProofs KrylovBudgetProofs Example_Krylov.

(** ** C43: the budget *)
(** BiCGStab, whatever the operators do (also if one of them raises): at most two applications per allowed iteration. *)
Theorem C43_bicgstab_bound : forall V (N : num V) rsum edot matvec minv b cfg,
  let l := snd (bicgstab N rsum edot matvec minv b cfg) in
  mats l <= 2 * Z.to_nat (k_max_its cfg) /\ pres l <= 2 * Z.to_nat (k_max_its cfg).
Proof. intros. apply bicgstab_bound. Qed.
Print Assumptions C43_bicgstab_bound.

(** GMRES, whatever the operators do: with [c] the least number of cycles that hold [max_its] iterations, at most the
    iterations of [c] full cycles and one more application per restart; a width that is not positive: none. *)
Theorem C43_gmres_bound : forall V (N : num V) rsum edot tri matvec minv b cfg,
  let l := snd (gmres N rsum edot tri matvec minv b cfg) in
  ((0 < k_restart cfg)%Z -> (0 <= k_max_its cfg)%Z -> forall c, least_cycles (k_max_its cfg) (k_restart cfg) c ->
     (Z.of_nat (mats l) <= c * k_restart cfg + Z.max 0 (c - 1))%Z /\ (Z.of_nat (pres l) <= c * (k_restart cfg + 1))%Z) /\
  ((k_restart cfg <= 0)%Z -> mats l = 0).
Proof. intros. split; [intros; apply gmres_bound; assumption|apply gmres_bad_restart]. Qed.
Print Assumptions C43_gmres_bound.
Example C43_least : least_cycles 1000 40 25 /\ least_cycles 1 40 1 /\ least_cycles 41 40 2 /\ least_cycles 0 40 0.
Proof. unfold least_cycles. lia. Qed.

(** What a BiCGStab solve that returns has cost: two applications of each operator per iteration, never more
    iterations than allowed, and exactly as many as allowed if some row did not converge. *)
Theorem C43_bicgstab_exact : forall V (N : num V) rsum edot matvec minv b cfg res l,
  bicgstab N rsum edot matvec minv b cfg = (Ok res, l) ->
  mats l = 2 * kr_iters res /\ pres l = 2 * kr_iters res /\ kr_iters res <= Z.to_nat (k_max_its cfg) /\
  (In false (kr_converged res) -> kr_iters res = Z.to_nat (k_max_its cfg)).
Proof.
  intros V N rsum edot matvec minv b cfg res l H.
  destruct (bicgstab_exact N rsum edot matvec minv b cfg res l H) as (st & _ & _ & _ & _ & M1 & M2 & Le & _).
  split; [exact M1|]. split; [exact M2|]. split; [exact Le|]. intros I.
  apply (bicgstab_unconverged N rsum edot matvec minv b cfg res l H I).
Qed.
Print Assumptions C43_bicgstab_exact.

(** A GMRES solve that returns: one application per iteration and one per restart; if some row did not converge, all
    cycles were run in full. *)
Theorem C43_gmres_exact : forall V (N : num V) rsum edot tri matvec minv b cfg res l c,
  (0 < k_restart cfg)%Z -> (0 <= k_max_its cfg)%Z -> least_cycles (k_max_its cfg) (k_restart cfg) c ->
  gmres N rsum edot tri matvec minv b cfg = (Ok res, l) ->
  (exists k, mats l = kr_iters res + (k - 1) /\ pres l = kr_iters res + k /\ (Z.of_nat k <= c)%Z) /\
  (Z.of_nat (kr_iters res) <= c * k_restart cfg)%Z /\
  (In false (kr_converged res) -> Z.of_nat (kr_iters res) = (c * k_restart cfg)%Z).
Proof.
  intros V N rsum edot tri matvec minv b cfg res l c Hm Hk Hc H.
  destruct (gmres_unconverged N rsum edot tri matvec minv b cfg res l c Hm Hk Hc H) as [U1 U2].
  split; [|split; [exact U1|]; intros I; apply U2; exact I].
  destruct (gmres_exact N rsum edot tri matvec minv b cfg res l Hm H) as (c' & st & k & Ec & _ & _ & _ & _ & M1 & M2 & Kc & _).
  assert (c' = c) by (eapply least_unique; [exact Hm|apply cycles_least; eassumption|exact Hc]). subst c'.
  exists k. split; [exact M1|]. split; [exact M2|]. destruct Hc as (_ & _ & C0). lia.
Qed.
Print Assumptions C43_gmres_exact.

(** Operators that answer every (B, n) tensor with another: the solve returns, converged or not. *)
Theorem C43_returns : forall V (N : num V) rsum edot tri rows n matvec minv b cfg,
  answers_sheets rows n matvec -> answers_sheets rows n minv -> 0 < rows -> sheet rows n b ->
  (k_method cfg = GMRES -> (0 < k_restart cfg)%Z /\ (0 <= k_max_its cfg)%Z /\ (k_max_its cfg + k_restart cfg < 2 ^ 63)%Z) ->
  exists res l, krylov_solve N rsum edot tri matvec minv b cfg = (Ok res, l).
Proof.
  intros V N rsum edot tri rows n matvec minv b cfg HA HM H0 Hb Hg. unfold krylov_solve. destruct (k_method cfg).
  - destruct (Hg eq_refl) as (Hm & Hk & Hf). destruct (cycles_ok cfg Hm Hk Hf) as (c & Ec).
    apply (gmres_returns N rsum edot tri rows n matvec minv HA HM b cfg c); auto.
  - apply (bicgstab_returns N rsum edot rows n matvec minv HA HM b cfg); auto.
Qed.
Print Assumptions C43_returns.

(** The stated budget of [max_its] applications is exceeded by either method, at the default configuration (1000) and
    at [max_its] = 1. *)
Theorem C43_budget_refuted :
  (exists b A M res l, kx_solve b A M (kx_cfg BiCGStab 40 1000) = (Ok res, l) /\ mats l = 2 * 1000 /\ kr_converged res = [false]) /\
  (exists b A M res l, kx_solve b A M (kx_cfg GMRES 40 1) = (Ok res, l) /\ kr_iters res = 2 /\ mats l = 2).
Proof.
  split.
  - exists [kx_e1], [kx_swap], [kx_id]. destruct (kx_solve _ _ _ _) as [[res|e] l] eqn:E; vm_compute in E; [|discriminate].
    exists res, l. split; [reflexivity|]. injection E as <- <-. split; reflexivity.
  - exists [kx_e1], [kx_swap], [kx_id]. destruct (kx_solve _ _ _ _) as [[res|e] l] eqn:E; vm_compute in E; [|discriminate].
    exists res, l. split; [reflexivity|]. injection E as <- <-. split; reflexivity.
Qed.
Print Assumptions C43_budget_refuted.

(** The metadata may ask for a restart width of zero; GMRES then divides by zero (undefined behaviour). *)
Theorem C43_zero_restart : forall V (N : num V) of_int trunc rsum edot tri matvec minv b (out : kconfig V),
  exists cfg, Load.read_krylov of_int trunc (Load.JObj [("restart"%string, Load.JInt 0%Z)]) out = Ok cfg /\
    krylov_solve N rsum edot tri matvec minv b cfg = (Err (OtherExn 0), []).
Proof. intros. eexists. split; reflexivity. Qed.
Print Assumptions C43_zero_restart.

(** A solve of no rows raises. *)
Theorem C43_empty : forall V (N : num V) rsum edot tri matvec minv cfg,
  is_ok (fst (krylov_solve N rsum edot tri matvec minv [] cfg)) = false.
Proof. intros. apply solve_empty. Qed.
Print Assumptions C43_empty.

(** ** C44: rows *)
(** BiCGStab: the solution and the flag of a row that the operators treat by itself are those of a solve of this row alone. *)
Theorem C44_bicgstab_rows : forall V (N : num V) rsum edot n matvec minv b cfg res l i A M bi,
  acts_on i A matvec -> acts_on i M minv -> keeps_width n A -> keeps_width n M ->
  bicgstab N rsum edot matvec minv b cfg = (Ok res, l) -> nth_error b i = Some bi -> length bi = n ->
  exists solo l1 x d, bicgstab N rsum edot (per_row [A]) (per_row [M]) [bi] cfg = (Ok solo, l1) /\
    kr_du solo = [x] /\ kr_converged solo = [d] /\
    nth_error (kr_du res) i = Some x /\ nth_error (kr_converged res) i = Some d /\ kr_iters solo <= kr_iters res.
Proof. intros V N rsum edot n matvec minv b cfg res l i A M bi EA EM KA KM. apply (bicgstab_solo N rsum edot n matvec minv b cfg res l i A M bi EA EM KA KM). Qed.
Print Assumptions C44_bicgstab_rows.

(** The reported count is that of the slowest row alone. *)
Theorem C44_bicgstab_iters : forall V (N : num V) rsum edot n As Ms b cfg res l,
  length As = length b -> length Ms = length b -> Forall (keeps_width n) As -> Forall (keeps_width n) Ms -> Forall (fun r => length r = n) b ->
  bicgstab N rsum edot (per_row As) (per_row Ms) b cfg = (Ok res, l) ->
  exists i A M bi solo l1, nth_error As i = Some A /\ nth_error Ms i = Some M /\ nth_error b i = Some bi /\
    bicgstab N rsum edot (per_row [A]) (per_row [M]) [bi] cfg = (Ok solo, l1) /\ kr_iters solo = kr_iters res.
Proof. intros V N rsum edot n As Ms b cfg res l. apply bicgstab_iters. Qed.
Print Assumptions C44_bicgstab_iters.

(** A row that has converged is not changed any more: a larger budget leaves it as it is, whatever the operators. *)
Theorem C44_bicgstab_frozen : forall V (N : num V) rsum edot matvec minv b cfg cfg' res l res' l' i x,
  k_abs_tol cfg' = k_abs_tol cfg -> k_rel_tol cfg' = k_rel_tol cfg -> (k_max_its cfg <= k_max_its cfg')%Z ->
  bicgstab N rsum edot matvec minv b cfg = (Ok res, l) -> bicgstab N rsum edot matvec minv b cfg' = (Ok res', l') ->
  nth_error (kr_converged res) i = Some true -> nth_error (kr_du res) i = Some x ->
  nth_error (kr_converged res') i = Some true /\ nth_error (kr_du res') i = Some x.
Proof.
  intros V N rsum edot matvec minv b cfg cfg' res l res' l' i x. apply bicgstab_frozen.
Qed.
Print Assumptions C44_bicgstab_frozen.
Example C44_bicgstab_case :
  Forall (keeps_width 2) [kx_near; kx_diag 1 2] /\ keeps_width 2 kx_id /\
  (exists res l, kx_solve [kx_ones; kx_ones] [kx_near; kx_diag 1 2] [kx_id; kx_id] (kx_cfg BiCGStab 40 1000) = (Ok res, l) /\
     kr_iters res = 2 /\ kr_converged res = [true; true]) /\
  (exists res l, kx_solve [kx_ones; kx_ones] [kx_near; kx_diag 1 2] [kx_id; kx_id] (kx_cfg BiCGStab 40 1) = (Ok res, l) /\
     kr_converged res = [true; false]).
Proof.
  split; [repeat constructor; apply kx_mat_width; reflexivity|]. split; [apply kx_id_width|].
  split; (destruct (kx_solve _ _ _ _) as [[res|e] l] eqn:E; vm_compute in E; [|discriminate]; exists res, l; injection E as <- <-; repeat split; reflexivity).
Qed.

(** GMRES: the flag of a row is that of a solve of this row alone, and so is its solution if it is one of the slowest. *)
Theorem C44_gmres_rows_partial : forall V (N : num V) rsum edot tri n matvec minv b cfg res l i A M bi,
  (0 < k_restart cfg)%Z -> acts_on i A matvec -> acts_on i M minv -> keeps_width n A -> keeps_width n M ->
  gmres N rsum edot tri matvec minv b cfg = (Ok res, l) -> nth_error b i = Some bi -> length bi = n ->
  exists solo l1 x d, gmres N rsum edot tri (per_row [A]) (per_row [M]) [bi] cfg = (Ok solo, l1) /\
    kr_du solo = [x] /\ kr_converged solo = [d] /\ nth_error (kr_converged res) i = Some d /\ kr_iters solo <= kr_iters res /\
    (kr_iters solo = kr_iters res -> nth_error (kr_du res) i = Some x).
Proof. intros V N rsum edot tri n matvec minv b cfg res l i A M bi. apply gmres_solo. Qed.
Print Assumptions C44_gmres_rows_partial.

(** What other rows can change is the number of iterations alone: batches that take equally many agree on a shared row. *)
Theorem C44_gmres_same_iters_partial : forall V (N : num V) rsum edot tri cfg A M bi mv mi b res l i mv2 mi2 b2 res2 l2 i2,
  (0 < k_restart cfg)%Z -> acts_on i A mv -> acts_on i M mi -> acts_on i2 A mv2 -> acts_on i2 M mi2 ->
  gmres N rsum edot tri mv mi b cfg = (Ok res, l) -> gmres N rsum edot tri mv2 mi2 b2 cfg = (Ok res2, l2) ->
  nth_error b i = Some bi -> nth_error b2 i2 = Some bi -> kr_iters res = kr_iters res2 ->
  nth_error (kr_du res) i = nth_error (kr_du res2) i2.
Proof. intros V N rsum edot tri cfg A M bi mv mi b res l i mv2 mi2 b2 res2 l2 i2. apply gmres_same_iters. Qed.
Print Assumptions C44_gmres_same_iters_partial.

(** Not so in general: with the default configuration, a row that converges alone in one iteration gets another
    solution when the batch holds a row that takes two (it is changed after it has converged). *)
Theorem C44_gmres_refuted :
  exists A A' b b' solo l1 x res l y,
    keeps_width 2 A /\ keeps_width 2 A' /\
    kx_solve [b] [A] [kx_id] (kx_cfg GMRES 40 1000) = (Ok solo, l1) /\ kr_du solo = [x] /\ kr_iters solo = 1 /\
    kx_solve [b; b'] [A; A'] [kx_id; kx_id] (kx_cfg GMRES 40 1000) = (Ok res, l) /\ nth_error (kr_du res) 0 = Some y /\
    kr_converged solo = [true] /\ kr_converged res = [true; true] /\ x <> y.
Proof.
  exists kx_near, kx_swap, kx_ones, kx_e1.
  destruct (kx_solve [kx_ones] [kx_near] [kx_id] (kx_cfg GMRES 40 1000)) as [[solo|e] l1] eqn:E1; vm_compute in E1; [|discriminate].
  destruct (kx_solve [kx_ones; kx_e1] [kx_near; kx_swap] [kx_id; kx_id] (kx_cfg GMRES 40 1000)) as [[res|e] l] eqn:E2; vm_compute in E2; [|discriminate].
  injection E1 as <- <-. injection E2 as <- <-.
  do 6 eexists. split; [apply kx_mat_width; reflexivity|]. split; [apply kx_mat_width; reflexivity|].
  split; [reflexivity|]. split; [reflexivity|]. split; [reflexivity|]. split; [reflexivity|]. split; [reflexivity|].
  split; [reflexivity|]. split; [reflexivity|]. discriminate.
Qed.
Print Assumptions C44_gmres_refuted.

(** ** C54: a row reported converged meets the tolerance *)
(** BiCGStab in exact arithmetic: a row of a linear operator is reported converged exactly if its residual [b - A x] is
    within the tolerances, whatever the preconditioner and whatever square root, division and comparison are. *)
Theorem C54_bicgstab : forall V (N : num V) rsum edot n matvec minv b cfg res l i A M bi x,
  ring_of N -> acts_on i A matvec -> acts_on i M minv -> linear_op N n A -> keeps_width n M ->
  bicgstab N rsum edot matvec minv b cfg = (Ok res, l) ->
  nth_error b i = Some bi -> length bi = n -> nth_error (kr_du res) i = Some x ->
  length x = n /\
  (nth_error (kr_converged res) i = Some true -> within N rsum cfg bi (residual_of N A bi x)) /\
  (nth_error (kr_converged res) i = Some false -> ~ within N rsum cfg bi (residual_of N A bi x)).
Proof. intros V N rsum edot n matvec minv b cfg res l i A M bi x R. apply bicgstab_residual. exact R. Qed.
Print Assumptions C54_bicgstab.
Example C54_case : ring_of qk_num /\ linear_op qk_num 2 qk_mat /\
  rmap kr_converged (fst (qk_solve 5)) = Ok [true] /\ rmap kr_converged (fst (qk_solve 1)) = Ok [false].
Proof. split; [apply qk_ring|]. split; [apply qk_mat_linear|]. split; apply qk_flags. Qed.

(** GMRES with a preconditioner compares the preconditioned residual with the norm of the plain right-hand side: the
    operator 2^20 with its exact inverse as preconditioner, default tolerances: x = 0 is returned as converged without
    an iteration, though the residual is b itself. *)
Theorem C54_gmres_preconditioned_refuted :
  exists A M b res l, keeps_width 1 A /\ keeps_width 1 M /\ M (A b) = b /\
    kx_solve [b] [A] [M] (kx_cfg GMRES 40 1000) = (Ok res, l) /\ kr_converged res = [true] /\ kr_du res = [[fzero]] /\
    residual_of binary64 A b [fzero] = b /\ ~ within binary64 kx_sum (kx_cfg GMRES 40 1000) b b.
Proof.
  exists (kx_mat [[fnum 1 20]]), (kx_mat [[fnum 1 (-20)]]), [fone].
  do 2 eexists. split; [apply kx_mat_width; reflexivity|]. split; [apply kx_mat_width; reflexivity|].
  split; [vm_compute; reflexivity|]. split; [vm_compute; reflexivity|]. split; [reflexivity|]. split; [reflexivity|].
  split; [vm_compute; reflexivity|]. intros [H|H]; vm_compute in H; discriminate.
Qed.
Print Assumptions C54_gmres_preconditioned_refuted.

(** GMRES without a preconditioner: for the operator zero the rotation is (0, 0), the estimated residual zero, and
    x = 0 is returned as converged. *)
Theorem C54_gmres_singular_refuted :
  exists A b res l, keeps_width 1 A /\
    kx_solve [b] [A] [kx_id] (kx_cfg GMRES 40 1000) = (Ok res, l) /\ kr_converged res = [true] /\ kr_du res = [[fzero]] /\
    residual_of binary64 A b [fzero] = b /\ ~ within binary64 kx_sum (kx_cfg GMRES 40 1000) b b.
Proof.
  exists (kx_mat [[fzero]]), [fone].
  do 2 eexists. split; [apply kx_mat_width; reflexivity|].
  split; [vm_compute; reflexivity|]. split; [reflexivity|]. split; [reflexivity|].
  split; [vm_compute; reflexivity|]. intros [H|H]; vm_compute in H; discriminate.
Qed.
Print Assumptions C54_gmres_singular_refuted.

(** C71: the eager route is the compiled route. *)
From Verif Require Import Base Tensor Spec TensorProofs Float Newton SpecNewton Example_Newton Log NewtonLog SpecNewtonLog Example_NewtonLog Krylov SpecKrylov Example_Krylov KrylovSystem Pack Implicit SystemAoti
     SpecSolved Example_Solved Example_Increment Eager SpecEager EagerProofs Example_Eager.
Local Open Scope string_scope.
Local Open Scope list_scope.

(** A Newton solve of a system in Python, assembled or matrix-free, does what the solve of the compiled segment of the same model
    does: the same unknowns after the same iterations, the same errors, the same lines to the same sinks (which may throw). *)
Theorem C71_same fsum tmax tmin say is_on rsum edot tri s gs ps rhs l p cfg u0 :
  same_model rsum edot tri s gs ps rhs l -> newton_fits p -> newton_says p cfg ->
  py_newton fsum tmax tmin say is_on rsum edot tri rhs (ss_unknown_groups s) (ss_residual_groups s) gs u0 l p =
  let* (u, k, _) := run_newton fsum tmax tmin say is_on cfg false (make_system s gs ps) u0 in Ok (u, true, k).
Proof. apply eager_same. Qed.
Print Assumptions C71_same.
Example C71_case :
  same_model kx_sum kx_dot kx_tri vx_seg ev_g ev_c ev_rhs ev_direct /\ same_model kx_sum kx_dot kx_tri vk_seg ev_g ev_c ev_rhs_k ev_iterative /\
  newton_fits ev_newton /\ newton_says ev_newton cfg0 /\
  (exists u, py_newton sum0 big small hush loud kx_sum kx_dot kx_tri ev_rhs [vx_group "u"] [vx_group "r"] ev_g ev_u ev_direct ev_newton = Ok (u, true, 5)) /\
  (exists u, py_newton sum0 big small hush loud kx_sum kx_dot kx_tri ev_rhs_k [vx_group "u"] [vx_group "r"] ev_g ev_u ev_iterative ev_newton = Ok (u, true, 5)).
Proof.
  split; [exact ev_same|]. split; [exact ev_same_k|]. split; [exact ev_fits|]. split; [exact ev_says|]. split; eexists; vm_compute; reflexivity.
Qed.

(** So its solution is that of the segment (C57), if no sink throws. *)
Theorem C71_result fsum tmax tmin say is_on rsum edot tri s gs ps rhs l p cfg u0 d i :
  same_model rsum edot tri s gs ps rhs l -> newton_fits p -> newton_says p cfg ->
  never_throws say -> is_on Debug = Ok d -> is_on Info = Ok i -> numel_lead (make_system s gs ps) u0 ->
  (let* (u, _, _) := py_newton fsum tmax tmin say is_on rsum edot tri rhs (ss_unknown_groups s) (ss_residual_groups s) gs u0 l p in Ok u) =
  newton_solve fsum cfg (make_system s gs ps) u0.
Proof.
  intros M Fp Sp Q Hd Hi Ne. rewrite (C71_same _ _ _ _ _ _ _ _ _ _ _ _ _ _ _ _ M Fp Sp), <- (run_result fsum tmax tmin say is_on cfg false _ _ d i Q Hd Hi Ne).
  destruct (run_newton _ _ _ _ _ _ _ _ _) as [[[u k] notes]|]; reflexivity.
Qed.
Print Assumptions C71_result.
Example C71_result_case : never_throws hush /\ loud Debug = Ok true /\ loud Info = Ok true /\
  numel_lead (make_system vx_seg ev_g ev_c) ev_u /\ numel_lead (make_system vk_seg ev_g ev_c) ev_u /\
  is_ok (newton_solve sum0 cfg0 (make_system vk_seg ev_g ev_c) ev_u) = true.
Proof. split; [intros ? ? ?; reflexivity|]. split; [reflexivity|]. split; [reflexivity|]. split; [apply ev_row; reflexivity|]. split; [apply ev_row; reflexivity|]. vm_compute. reflexivity. Qed.

(** The masked solve too, with its mask. *)
Theorem C71_masked fsum tmax tmin say is_on rsum edot tri s gs ps rhs jacobian linear_solve p cfg u0 :
  same_model rsum edot tri s gs ps rhs (Assembled jacobian linear_solve) -> newton_fits p -> newton_says p cfg ->
  py_solve_masked fsum tmax tmin say is_on rhs (ss_unknown_groups s) (ss_residual_groups s) gs u0 jacobian linear_solve p =
    run_newton_masked fsum tmax tmin say is_on cfg false (make_system s gs ps) u0 /\
  forall d, never_throws say -> is_on Debug = Ok d -> numel_lead (make_system s gs ps) u0 ->
    (let* (u, m, _) := py_solve_masked fsum tmax tmin say is_on rhs (ss_unknown_groups s) (ss_residual_groups s) gs u0 jacobian linear_solve p in Ok (u, m)) =
    newton_solve_masked fsum cfg (make_system s gs ps) u0.
Proof.
  intros M Fp Sp. pose proof (eager_masked_same fsum tmax tmin say is_on rsum edot tri s gs ps rhs jacobian linear_solve p cfg u0 M Fp Sp) as E.
  split; [exact E|]. intros d Q Hd Ne. rewrite E. eapply run_masked_result; eassumption.
Qed.
Print Assumptions C71_masked.
Example C71_masked_case : exists u k,
  py_solve_masked sum0 big small hush loud ev_rhs [vx_group "u"] [vx_group "r"] ev_g ev_u ev_jacobian vx_linear ev_newton = Ok (u, [true; true], S k).
Proof. do 2 eexists. vm_compute. reflexivity. Qed.

(** Settings arrive as the numbers they are; those that the C++ types cannot hold and names that do not exist are refused, before
    anything is called. *)
Theorem C71_settings fsum tmax tmin say is_on rsum edot tri res stp mat setup apply U R u0 p log q :
  (newton_fits p -> exists cfg, newton_args p = Ok cfg /\ newton_says p cfg) /\
  (krylov_fits q -> (exists m, pk_method q = method_name m) -> (exists c, pk_cache q = cache_name c) -> exists cfg, krylov_args q = Ok cfg /\ krylov_says q cfg) /\
  (~ newton_fits p ->
     newton_solve_eager fsum tmax tmin say is_on res stp U R u0 p log = Err type_error /\
     newton_solve_eager_masked fsum tmax tmin say is_on res stp U R u0 p = Err type_error /\
     krylov_solve_eager fsum tmax tmin say is_on rsum edot tri res mat setup apply U R u0 p log q = Err type_error) /\
  (newton_fits p -> ~ krylov_fits q -> krylov_solve_eager fsum tmax tmin say is_on rsum edot tri res mat setup apply U R u0 p log q = Err type_error) /\
  (newton_fits p -> krylov_fits q -> ~ ((exists m, pk_method q = method_name m) /\ (exists c, pk_cache q = cache_name c)) ->
     exists m, krylov_solve_eager fsum tmax tmin say is_on rsum edot tri res mat setup apply U R u0 p log q = Err (Fatal m)).
Proof. apply settings_taken. Qed.
Print Assumptions C71_settings.
Example C71_settings_case :
  newton_fits ev_newton /\ krylov_fits ev_krylov /\ pk_method ev_krylov = method_name BiCGStab /\ pk_cache ev_krylov = cache_name Chord /\
  ~ newton_fits (mkPN fzero fzero (-1) "" 1 fone fone fone) /\ ~ krylov_fits (mkPK "gmres" (2 ^ 63) 1 fzero fzero "none" 1).
Proof.
  split; [exact ev_fits|]. split; [repeat split; vm_compute; discriminate|]. split; [reflexivity|]. split; [reflexivity|]. split.
  - intros [[A _] _]. vm_compute in A. apply A. reflexivity.
  - intros [[_ A] _]. vm_compute in A. discriminate.
Qed.

(** But any name will do for the line search: all others than "STRONG_WOLFE" mean backtracking. *)
Theorem C71_ls_type_refuted fsum tmax tmin say is_on res stp U R u0 p log t :
  t <> "STRONG_WOLFE" ->
  let named t := mkPN (pn_atol p) (pn_rtol p) (pn_miters p) t (pn_ls_max_iters p) (pn_ls_cutback p) (pn_ls_c p) (pn_del_tol p) in
  newton_solve_eager fsum tmax tmin say is_on res stp U R u0 (named t) log = newton_solve_eager fsum tmax tmin say is_on res stp U R u0 (named "BACKTRACKING") log.
Proof. apply any_name. Qed.
Print Assumptions C71_ls_type_refuted.
Example C71_ls_type_case : "strong_wolfe" <> "STRONG_WOLFE".
Proof. discriminate. Qed.

(** The linear solves of the derivatives are those of the compiled segments ([krylov_solve_dense], C45, C59), for any cache. *)
Theorem C71_linear rsum edot tri cfg A b :
  t_shape A <> [] -> wf b -> t_shape b <> [] -> in_int64 (k_restart cfg) -> in_int64 (k_max_its cfg) ->
  krylov_solve_raw rsum edot tri A b (method_name (k_method cfg)) (k_restart cfg) (k_max_its cfg) (k_abs_tol cfg) (k_rel_tol cfg) =
  krylov_solve_dense binary64 rsum edot tri cfg A b.
Proof. apply raw_same. Qed.
Print Assumptions C71_linear.
Definition ev_A : tensor F := mkT [2; 2; 2] [ftwo; fzero; fzero; fone; fone; fone; fzero; ftwo] cpu.
Definition ev_B : tensor F := mkT [2; 2; 1] [ftwo; fone; fnum 3 0; fnum 4 0] cpu.
Example C71_linear_case :
  wf ev_B /\ krylov_solve_raw kx_sum kx_dot kx_tri ev_A ev_B "bicgstab" 40 1000 fzero kx_rel = Ok (mkT [2; 2; 1] [fone; fone; fone; ftwo] cpu).
Proof. split; [reflexivity|]. vm_compute. reflexivity. Qed.

(** So they return what they have when the budget is used up, too. *)
Theorem C71_unconverged_refuted :
  exists A b x, wf A /\ wf b /\ krylov_solve_raw kx_sum kx_dot kx_tri A b "gmres" 40 0 fzero kx_rel = Ok x /\ t_data A = [fone] /\ t_data b = [fone] /\ t_data x = [fzero].
Proof. exists (mkT [1; 1; 1] [fone] cpu), (mkT [1; 1] [fone] cpu). eexists. split; [reflexivity|]. split; [reflexivity|]. split; [vm_compute; reflexivity|]. repeat split. Qed.
Print Assumptions C71_unconverged_refuted.

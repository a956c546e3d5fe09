(** Concrete cases for C71: the segment c u^2 = w of Example_Solved and Example_Increment, and the same model in Python, whose
    modules hold c. *)
From Verif Require Import Base Tensor Float Newton SpecNewton Example_Newton Log NewtonLog SpecNewtonLog Example_NewtonLog Krylov SpecKrylov Example_Krylov KrylovSystem Pack Implicit SystemAoti Example_Solved
     Example_Increment Eager SpecEager.
Local Open Scope string_scope.
Local Open Scope list_scope.

Definition ev_c : groups := [mkT [] [ftwo] cpu].
Definition ev_g : groups := [mkT [2; 1] [fnum 8 0; fnum 50 0] cpu].
Definition ev_u : groups := ev_g.
Definition ev_rhs (l : groups) : result groups := vx_residual (l ++ ev_c).
Definition ev_jacobian (l : groups) : result groups := vx_jacobian (l ++ ev_c).
Definition ev_direct : linear_solver := Assembled ev_jacobian vx_linear.
Definition ev_newton : pnewton :=
  mkPN (cf_atol cfg0) (cf_rtol cfg0) (Z.of_nat (cf_miters cfg0)) (cf_ls_type cfg0) (Z.of_nat (cf_ls_max_iters cfg0)) (cf_ls_cutback cfg0) (cf_ls_c cfg0) (cf_del_tol cfg0).
Lemma ev_fits : newton_fits ev_newton.
Proof. split; vm_compute; (split; [discriminate|reflexivity]). Qed.
Lemma ev_says : newton_says ev_newton cfg0.
Proof. repeat split. Qed.
Lemma ev_same : same_model kx_sum kx_dot kx_tri vx_seg ev_g ev_c ev_rhs ev_direct.
Proof.
  assert (A : forall u : groups, u ++ ev_g ++ ev_c = (u ++ ev_g) ++ ev_c) by (intros; apply app_assoc).
  split; [intros u _; cbn [ss_residual_graph vx_seg]; unfold ev_rhs; rewrite A; reflexivity|]. cbn [same_steps ss_kind vx_seg ev_direct].
  split; [intros u _; unfold ev_jacobian; rewrite A; reflexivity|]. split; [reflexivity|]. split.
  - intros x l H. unfold ev_jacobian in H. destruct (x ++ ev_c) as [|a [|b [|c [|d r]]]]; try discriminate. injection H as <-. reflexivity.
  - intros x l H. destruct x as [|a [|b [|c r]]]; try discriminate. injection H as <-. reflexivity.
Qed.

Definition ev_rhs_k (l : groups) : result groups := vk_residual (l ++ ev_c).
Definition ev_matvec (l : groups) : result groups := match l with [u; w; v] => vk_mat [u; w; mkT [] [ftwo] cpu; v] | _ => Err (StdExn "arguments") end.
Definition ev_setup (l : groups) : result groups := vk_setup (l ++ ev_c).
Definition ev_apply (l : groups) : result (tensor F) := let* y := vk_apply l in match y with [z] => Ok z | _ => Err (StdExn "arguments") end.
Definition ev_krylov : pkrylov := mkPK "bicgstab" 40 1000 fzero kx_rel "chord" 10.
Definition ev_iterative : linear_solver := Iterative ev_krylov ev_matvec (Some ev_setup) (Some ev_apply).
Lemma ev_same_k : same_model kx_sum kx_dot kx_tri vk_seg ev_g ev_c ev_rhs_k ev_iterative.
Proof.
  assert (A : forall u : groups, u ++ ev_g ++ ev_c = (u ++ ev_g) ++ ev_c) by (intros; apply app_assoc).
  split; [intros u _; cbn [ss_residual_graph vk_seg]; unfold ev_rhs_k; rewrite A; reflexivity|]. cbn [same_steps ss_kind vk_seg ev_iterative].
  do 3 (split; [reflexivity|]). split; [repeat split|]. split; [repeat split; vm_compute; discriminate|]. split.
  - intros [|u [|? ?]] [|v [|? ?]] Hu Hv; try discriminate. reflexivity.
  - cbn [same_preconditioner]. split; [intros u _; unfold ev_setup; rewrite A; reflexivity|]. exists ev_apply. split; [reflexivity|]. intros p r. unfold ev_apply, vk_apply.
    destruct (p ++ [r]) as [|a [|b [|c l]]]; try reflexivity. unfold vk_zip. destruct (Nat.eqb _ _); reflexivity.
Qed.
Lemma ev_row s : ss_unknown_groups s = [vx_group "u"] -> gs_unknown (make_system s ev_g ev_c) = [vx_group "u"] -> numel_lead (make_system s ev_g ev_c) ev_u.
Proof. intros _ E dyn H. rewrite E in H. vm_compute in H. injection H as <-. vm_compute. repeat constructor. Qed.

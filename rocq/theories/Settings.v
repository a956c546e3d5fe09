(** Solver settings at run time: set_solver_config of a Model, of a DispatchedModel and of the Python binding.  Definitions only.
    [collect_log] (Model.h:70-75) is not among the settings of Load.v: it decides what a solve records, not what it returns
    (NewtonLog.v); the binding leaves it at its default. *)
From Coq Require Import String.
From Verif Require Import Base Tensor Krylov Float Newton Load Runtime Bundle Eager.
Local Open Scope list_scope.

(** Model.cpp:1086-1090: the settings are replaced as a whole; the kind of the linear solver and the Krylov settings are others. *)
Definition with_config {V} (c : sconfig V) (m : loaded V) : loaded V :=
  mkLd (ld_tables m) (ld_inputs m) (ld_offsets m) (ld_total m) (ld_outputs m) (ld_derivs m) (ld_pderivs m)
       (ld_named m) (ld_bases m) c (ld_solver m) (ld_krylov m) (ld_segs m).
Definition model_config {V C} (c : sconfig V) (m : model (V:=V) (C:=C)) : model :=
  mkModel (md_device m) (with_config c (md_loaded m)) (md_package m).

(** DispatchedModel.cpp:353-357, 740-744: of each Model.  [_active] points to one of them (48-69). *)
Definition set_config {V C} (D : dispatched (V:=V) (C:=C)) (c : sconfig V) : dispatched :=
  mkDM (model_config c (dm_active D)) (map (fun x => (fst x, model_config c (snd x))) (dm_models D)).
(** A program that sets one after the other. *)
Definition set_configs {V C} (D : dispatched (V:=V) (C:=C)) (cs : list (sconfig V)) : dispatched := fold_left set_config cs D.

(** _aoti.cpp:319-341: the two counts are std::size_t, pybind11 raises a TypeError before the body runs. *)
Definition py_set_config (p : pnewton) (m : loaded F) : result (loaded F) :=
  let* miters := as_size (pn_miters p) in
  let* ls := as_size (pn_ls_max_iters p) in
  Ok (with_config (mkScfg (pn_atol p) (pn_rtol p) (Z.of_nat miters) (pn_ls_type p) (Z.of_nat ls) (pn_ls_cutback p) (pn_ls_c p) (pn_del_tol p)) m).
